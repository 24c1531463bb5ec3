(* M_Csv.v -- csv output of arrays and tables, the formats of table cells, and
   the print formats ⎕PP (primitives/format.go, table.go, fmt.go). *)
From Verif Require Import Base M_Array M_Structural.
Open Scope Z_scope.

(* ---- the csv Writer of the Go library, with Comma ',' and without UseCRLF ---- *)
Section WRITER.
  Context (isSpace : Z -> bool).
  (* encoding/csv Writer.fieldNeedsQuotes *)
  Definition needsQuotes (f : list Z) : bool :=
    match f with
    | [] => false
    | r :: _ => (match f with [92; 46] => true | _ => false end)
                || existsb (fun c => (c =? 44) || (c =? 34) || (c =? 13) || (c =? 10)) f || isSpace r
    end.
  Fixpoint doubled (f : list Z) : list Z := match f with [] => [] | c :: r => if c =? 34 then 34 :: 34 :: doubled r else c :: doubled r end.
  Definition csvField (f : list Z) : list Z := if needsQuotes f then 34 :: doubled f ++ [34] else f.
  Fixpoint csvFields (fs : list (list Z)) : list Z :=
    match fs with [] => [] | [f] => csvField f | f :: r => csvField f ++ 44 :: csvFields r end.
  (* Writer.Write *)
  Definition csvWrite (fs : list (list Z)) : list Z := csvFields fs ++ [10].

  (* primitives/format.go:102-128 formatCsv of an array: the fields of one row,
     then all rows; idx counts the elements *)
  Fixpoint csvRow {A} (str : A -> list Z) (l : list A) (n : nat) (idx : Z) : outcome (list (list Z)) :=
    match n with
    | O => Ok []
    | S m => let* x := zat l idx in let* r := csvRow str l m (idx + 1) in Ok (str x :: r)
    end.
  Fixpoint csvRows {A} (str : A -> list Z) (l : list A) (c : nat) (n : nat) (idx : Z) : outcome (list Z) :=
    match n with
    | O => Ok []
    | S m => let* fs := csvRow str l c idx in let* r := csvRows str l c m (idx + Z.of_nat c) in Ok (csvWrite fs ++ r)
    end.
  Definition formatCsv {A} (str : A -> list Z) (a : arr A) : outcome (list Z) :=
    match dims a with
    | [n; c] => if (n =? 0) || (c =? 0) then Ok [] else csvRows str (elems a) (Z.to_nat c) (Z.to_nat n) 0
    | _ => Err
    end.

  (* ---- tables ---- *)
  (* values V with their types T; K: keys *)
  Context {T V K : Type} (teq : forall a b : T, {a = b} + {a <> b}) (typ : V -> T).
  (* apl.go:49-52 Format *)
  Record fmt := mkFmt { PP : Z; Fmt : T -> option (list Z) }.
  Definition put (f : fmt) (t : T) (o : option (list Z)) : fmt := mkFmt (PP f) (fun u => if teq u t then o else Fmt f u).
  (* what prints a value or a key, given the formats *)
  Context (str : fmt -> V -> list Z) (kstr : fmt -> K -> list Z).
  (* keys that are Go map keys: an array or a list as a key panics *)
  Context (hashable : K -> bool) (keq : K -> K -> bool).
  (* an element of a column: a value, or an array of values with its own type *)
  Inductive cell := One (v : V) | Many (t : T) (l : list V).
  (* table.go:80-89 colfmt: L lists the keys of the object, with the value if it is
     a string *)
  Fixpoint colfmt (L : list (K * option (list Z))) (m : list (K * list Z)) : outcome (list (K * list Z)) :=
    match L with
    | [] => Ok m
    | (k, Some s) :: r => if hashable k then colfmt r ((k, s) :: m) else Panic
    | (_, None) :: r => colfmt r m
    end.
  Fixpoint mapGet (m : list (K * list Z)) (k : K) : option (list Z) :=
    match m with [] => None | (k', s) :: r => if keq k' k then Some s else mapGet r k end.
  (* table.go:108-113; an empty string is no format *)
  Definition custom (cf : option (list (K * list Z))) (k : K) : outcome (list Z) :=
    match cf with
    | None => Ok []
    | Some m => if hashable k then Ok (match mapGet m k with Some s => s | None => [] end) else Panic
    end.
  Fixpoint join (l : list (list Z)) : list Z := match l with [] => [] | [x] => x | x :: r => x ++ 32 :: join r end.
  Definition cellType (c : cell) : T := match c with One v => typ v | Many t _ => t end.
  (* table.go:114-136: the format map f is one for all cells *)
  Definition writeCell (f : fmt) (s : list Z) (c : cell) : list Z * fmt :=
    let f' := put f (cellType c) (match s with [] => None | _ => Some s end) in
    (match c with
     | One v => str f' v
     | Many _ l => let t := join (map (str f') l) in if PP f' <? 0 then 91 :: t ++ [93] else t
     end, f').
  Fixpoint writeRow (cf : option (list (K * list Z))) (cols : list (K * list cell)) (n : Z) (f : fmt) : outcome (list (list Z) * fmt) :=
    match cols with
    | [] => Ok ([], f)
    | (k, col) :: r =>
        let* s := custom cf k in
        let* c := zat col n in
        let (x, f') := writeCell f s c in
        let* p := writeRow cf r n f' in
        Ok (x :: fst p, snd p)
    end.
  (* table.go:106-140: the rows from n on, m of them *)
  Fixpoint writeRows (cf : option (list (K * list Z))) (cols : list (K * list cell)) (m : nat) (n : Z) (f : fmt) : outcome (list (list (list Z))) :=
    match m with
    | O => Ok []
    | S m' => let* p := writeRow cf cols n f in let* r := writeRows cf cols m' (n + 1) (snd p) in Ok (fst p :: r)
    end.
  (* table.go:74-141 write: the rows handed to the row writer; the keys of a table
     and its columns are given as a list *)
  Definition write (af : fmt) (L : option (list (K * option (list Z)))) (cols : list (K * list cell)) (rows : nat) : outcome (list (list (list Z))) :=
    match cols with
    | [] => Ok []
    | _ =>
        let* cf := match L with None => Ok None | Some l => let* m := colfmt l [] in Ok (Some m) end in
        let* r := writeRows cf cols rows 0 af in
        Ok (map (fun c => kstr af (fst c)) cols :: r)
    end.
  (* table.go:55-62 Csv *)
  Definition Csv (af : fmt) L cols rows : outcome (list Z) := let* r := write af L cols rows in Ok (flat_map csvWrite r).

  (* ---- ⎕PP ---- *)
  (* what may be assigned: the empty array, an object (its keys, with the value if
     it is a string), a number (with the integer if it is one), anything else *)
  Inductive ppval := PEmpty | PObj (l : list (V * option (list Z))) | PNum (i : option Z) | POther.
  (* fmt.go:28-50 SetPP; the state stays changed after an error *)
  Definition SetPP (R : ppval) (f : fmt) : outcome unit * fmt :=
    match R with
    | PEmpty => (Ok tt, mkFmt 0 (fun _ => None))
    | PObj l => (Err, fold_left (fun g e => match snd e with Some s => put g (typ (fst e)) (Some s) | None => g end) l f)
    | PNum (Some i) => (Ok tt, mkFmt i (Fmt f))
    | PNum None => (Err, f)
    | POther => (Err, f)
    end.
End WRITER.
Arguments mkFmt {T} PP Fmt.
Arguments PP {T} f.
Arguments Fmt {T} f _.
Arguments One {T V} v.
Arguments Many {T V} t l.
Arguments PEmpty {V}.
Arguments PObj {V} l.
Arguments PNum {V} i.
Arguments POther {V}.
