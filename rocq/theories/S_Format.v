(* S_Format.v -- specification of the text of arrays. *)
From Verif Require Import Base M_Array S_Array M_Scan S_Scan M_Format.

(* an array that has elements *)
Definition nonempty {A} (v : arr A) : Prop := wf v /\ Forall (fun d => 1 <= d) (dims v).

(* [readable w x]: w is the text of a number that is read as x, without any other runes than
   those of numbers, or a quoted string that is read as x *)
Definition readable {A} (C : scanner) (num : text -> option A) (str : text -> A) (w : text) (x : A) : Prop :=
  (w <> [] /\ Forall (fun r => number_rune r = true) w /\ num w = Some x)
  \/ (exists b s, w = r_dquote :: b ++ [r_dquote] /\ escaped b /\ s_unquote C w = Some s /\ x = str s).

(* the shape without the leading axes of length 1, but with at least one axis *)
Fixpoint no_leading_ones (s : list Z) : list Z :=
  match s with
  | [] => []
  | d :: s' => match s' with [] => s | _ => if d =? 1 then no_leading_ones s' else s end
  end.

(* the cells of an array whose shape ends with cs, in order *)
Definition cells_of {A} (cs : list Z) (v : arr A) : list (arr A) :=
  map (fun i => mkArr cs (firstn (Z.to_nat (size cs)) (skipn (Z.to_nat (i * size cs)) (elems v))))
      (zseq (size (dims v) / size cs)).

(* what strconv.Quote and strconv.Unquote do for the scanner: a quoted string is enclosed in
   double quotes, the quotes and backslashes inside are escaped, and unquoting restores it *)
Definition quotes (C : scanner) (quote : text -> text) : Prop :=
  forall s, exists b, quote s = r_dquote :: b ++ [r_dquote] /\ escaped b /\ s_unquote C (quote s) = Some s.
