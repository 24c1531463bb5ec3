(* M_Json.v -- model of the texts of strings, lists and dictionaries for interchange (PP below 0):
   apl/string.go, apl/list.go, apl/object.go, apl/int.go, apl/bool.go, on top of jsonArray and matArray of M_Format.
   Also strconv.Quote and strconv.Unquote of the Go library, which apl.String.String and the
   scanner use; texts are lists of runes, so strings that are not valid UTF-8 are not modelled. *)
From Verif Require Import Base M_Array M_Scan M_Strings M_Format.

(* the hexadecimal digit of 0..15, lower case *)
Definition hexdigit (n : Z) : Z := if n <? 10 then 48 + n else 87 + n.
(* n hexadecimal digits of z, the highest first *)
Fixpoint hexdigits (n : nat) (z : Z) : text :=
  match n with O => [] | S n' => hexdigits n' (z / 16) ++ [hexdigit (z mod 16)] end.

Section Quote.
  Context (IsPrint : Z -> bool).   (* strconv.IsPrint *)
  Context (del : bool).            (* newer Go releases write \x7f, older ones \u007f *)

  (* strconv.appendEscapedRune *)
  Definition escape_rune (r : Z) : text :=
    if (r =? r_dquote) || (r =? r_bslash) then [r_bslash; r]
    else if IsPrint r then [r]
    else if r =? 7 then [r_bslash; 97] else if r =? 8 then [r_bslash; 98] else if r =? 12 then [r_bslash; 102]
    else if r =? 10 then [r_bslash; 110] else if r =? 13 then [r_bslash; 114] else if r =? 9 then [r_bslash; 116]
    else if r =? 11 then [r_bslash; 118]
    else if (r <? 32) || (del && (r =? 127)) then r_bslash :: 120 :: hexdigits 2 r
    else if r <? 65536 then r_bslash :: 117 :: hexdigits 4 r
    else r_bslash :: 85 :: hexdigits 8 r.
  (* strconv.Quote *)
  Definition Quote (s : text) : text := r_dquote :: flat_map escape_rune s ++ [r_dquote].
End Quote.

(* strconv.unhex *)
Definition unhex (c : Z) : option Z :=
  if (48 <=? c) && (c <=? 57) then Some (c - 48) else if (97 <=? c) && (c <=? 102) then Some (c - 87)
  else if (65 <=? c) && (c <=? 70) then Some (c - 55) else None.
Fixpoint unhexs (n : nat) (acc : Z) (s : text) : option (Z * text) :=
  match n with
  | O => Some (acc, s)
  | S n' => match s with
            | [] => None
            | c :: s' => match unhex c with None => None | Some x => unhexs n' (acc * 16 + x) s' end
            end
  end.
Fixpoint unoct (n : nat) (acc : Z) (s : text) : option (Z * text) :=
  match n with
  | O => Some (acc, s)
  | S n' => match s with
            | [] => None
            | c :: s' => if (48 <=? c) && (c <=? 55) then unoct n' (acc * 8 + (c - 48)) s' else None
            end
  end.
(* strconv.UnquoteChar for double quotes: a rune and the rest.  The bytes \x80 to \xff, which are
   no runes, are refused here *)
Definition UnquoteChar (s : text) : option (Z * text) :=
  match s with
  | [] => None
  | c :: s =>
      if c =? r_dquote then None
      else if negb (c =? r_bslash) then Some (c, s)
      else match s with
           | [] => None
           | c :: s =>
               if c =? 97 then Some (7, s) else if c =? 98 then Some (8, s) else if c =? 102 then Some (12, s)
               else if c =? 110 then Some (10, s) else if c =? 114 then Some (13, s) else if c =? 116 then Some (9, s)
               else if c =? 118 then Some (11, s)
               else if c =? 120 then match unhexs 2 0 s with Some (v, t) => if v <? 128 then Some (v, t) else None | None => None end
               else if c =? 117 then match unhexs 4 0 s with Some (v, t) => if v <=? 1114111 then Some (v, t) else None | None => None end
               else if c =? 85 then match unhexs 8 0 s with Some (v, t) => if v <=? 1114111 then Some (v, t) else None | None => None end
               else if (48 <=? c) && (c <=? 55) then match unoct 2 (c - 48) s with Some (v, t) => if v <? 128 then Some (v, t) else None | None => None end
               else if c =? r_bslash then Some (r_bslash, s)
               else if c =? r_dquote then Some (r_dquote, s)
               else None
           end
  end.
(* the loop of strconv.Unquote; every turn takes at least one rune *)
Fixpoint unquote_loop (fuel : nat) (s : text) : option text :=
  match s with
  | [] => Some []
  | _ => match fuel with
         | O => None
         | S fuel' => match UnquoteChar s with
                      | None => None
                      | Some (r, t) => match unquote_loop fuel' t with None => None | Some u => Some (r :: u) end
                      end
         end
  end.
(* strconv.Unquote of a text in double quotes; a newline inside is refused *)
Definition Unquote (s : text) : option text :=
  match s with
  | q :: s' =>
      match rev s' with
      | q' :: b =>
          if (q =? r_dquote) && (q' =? r_dquote) then
            let body := rev b in
            if existsb (Z.eqb 10) body then None else unquote_loop (length body) body
          else None
      | [] => None
      end
  | [] => None
  end.

(* the values with a text for interchange.  WOther stands for numbers other than Int, and for all
   other types, by the text they have; WDict holds the keys Dict.K in order, each with its
   value in Dict.M; a Table prints as its Dict (table.go:33-36) *)
Inductive wval :=
| WInt (z : Z) | WBool (b : bool) | WStr (s : text) | WOther (t : text) | WEmpty
| WArr (ds : list Z) (es : list wval) | WList (l : list wval) | WDict (d : list (wval * wval)).

(* one after the other, as mapM of Base *)
Definition each_text {A} (f : A -> outcome text) : list A -> outcome (list text) :=
  fix go l := match l with [] => Ok [] | x :: r => let* y := f x in let* ys := go r in Ok (y :: ys) end.
Section Interchange.
  Context (quote : text -> text).
  (* V.String(f) for f.PP = -2 and no formats set: int.go:21-43, bool.go:9-20, string.go:13-24,
     array.go:256, fmt.go:121-139, list.go:12-15 91-103, object.go:77-79 113-130 *)
  Fixpoint jsonText (v : wval) : outcome text :=
    match v with
    | WInt z => Ok (intString z)
    | WBool b => Ok (boolString b)
    | WStr s => Ok (quote s)
    | WOther t => Ok t
    | WEmpty => Ok []
    | WArr ds es => let* ts := each_text jsonText es in json_vector ds ts
    | WList l => let* ts := each_text jsonText l in Ok ([r_lbrack] ++ Join ts [r_comma] ++ [r_rbrack])
    | WDict d =>
        let* ts := (fix go (d : list (wval * wval)) : outcome (list text) :=
                      match d with
                      | [] => Ok []
                      | (k, v) :: r => let* a := jsonText k in let* b := jsonText v in let* ts := go r in Ok ((a ++ 58 :: b) :: ts)
                      end) d in
        Ok ([123] ++ Join ts [r_comma] ++ [125])
    end.
End Interchange.
