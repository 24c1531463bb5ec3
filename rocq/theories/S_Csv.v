(* S_Csv.v -- what a reader of csv text (RFC 4180) sees: records of fields,
   separated by commas, ended by newlines; a field in quotes may contain
   anything, with quotes doubled.  A line without anything is a record with one
   empty field. *)
From Verif Require Import Base.
Open Scope Z_scope.

Inductive csvstate := FieldStart | Plain | Quoted | QuoteSeen.
(* fld: the current field so far, rec: the fields of the current record *)
Fixpoint readCsv (st : csvstate) (fld : list Z) (rec : list (list Z)) (t : list Z) : option (list (list (list Z))) :=
  match t with
  | [] => match st, rec with FieldStart, [] => Some [] | Quoted, _ => None | _, _ => Some [rec ++ [fld]] end
  | c :: r =>
      match st with
      | FieldStart | Plain =>
          if c =? 44 then readCsv FieldStart [] (rec ++ [fld]) r
          else if c =? 10 then option_map (cons (rec ++ [fld])) (readCsv FieldStart [] [] r)
          else if c =? 34 then (match st with FieldStart => readCsv Quoted [] rec r | _ => None end)
          else if c =? 13 then None
          else readCsv Plain (fld ++ [c]) rec r
      | Quoted => if c =? 34 then readCsv QuoteSeen fld rec r else readCsv Quoted (fld ++ [c]) rec r
      | QuoteSeen =>
          if c =? 34 then readCsv Quoted (fld ++ [c]) rec r
          else if c =? 44 then readCsv FieldStart [] (rec ++ [fld]) r
          else if c =? 10 then option_map (cons (rec ++ [fld])) (readCsv FieldStart [] [] r)
          else None
      end
  end.
Definition csv_records (t : list Z) : option (list (list (list Z))) := readCsv FieldStart [] [] t.
