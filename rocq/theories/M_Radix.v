(* M_Radix.v -- model of the texts of integers for the print precisions ¯8 and ¯16
   (apl/int.go:21-43, apl/primitives/format.go:74-75).  fmt.Sprintf of the verbs %o and %X is
   modelled for 64-bit integers. *)
From Verif Require Import Base M_Scan M_Strings M_Format.

(* fmt's digits "0123456789ABCDEFX" *)
Definition upper_digit (d : Z) : Z := if d <? 10 then 48 + d else 55 + d.
(* fmt.fmtInteger: the digits of n, the last one first *)
Fixpoint radix_digits (base : Z) (fuel : nat) (n : Z) (acc : text) : text :=
  match fuel with
  | O => acc
  | S fuel' => let acc := upper_digit (n mod base) :: acc in if n <? base then acc else radix_digits base fuel' (n / base) acc
  end.
(* fmt.Sprintf("%o", i) and "%X": a sign and the digits; 22 octal digits are enough for 64 bits *)
Definition fmtInteger (base z : Z) : text :=
  if z <? 0 then r_minus :: radix_digits base 22 (- z) [] else radix_digits base 22 z [].
(* strings.Replace(s, "-", "¯", 1) *)
Fixpoint replace_first (s : text) : text :=
  match s with [] => [] | r :: s' => if r =? r_minus then r_macron :: s' else r :: replace_first s' end.
(* int.go:21-43 Int.String without a format: the cases -8 and -16 of PP, and the others *)
Definition radixString (PP z : Z) : text :=
  let s := if PP =? -8 then 48 :: fmtInteger 8 z
           else if PP =? -16 then 48 :: 120 :: fmtInteger 16 z
           else fmtInteger 10 z in
  replace_first s.
(* the same inside an array; the other types do not look at ¯8, and numbers.Float uses %b for ¯16,
   which is left to other_show (bool.go:9-20, string.go:13-24) *)
Definition radixElt {A} (other_show : A -> text) (quote : text -> text) (PP : Z) (e : elt A) : text :=
  match e with
  | EBool b => boolString b
  | EInt z => radixString PP z
  | EString s => quote s
  | EOther a => other_show a
  end.
