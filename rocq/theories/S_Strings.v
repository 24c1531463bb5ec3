(* S_Strings.v -- specification of splitting and joining. *)
From Verif Require Import Base M_Scan M_Strings.

(* sep occurs in s *)
Definition occurs (sep s : bytes) : Prop := exists x y, s = x ++ sep ++ y.
(* sep occurs in p ++ sep only at its end *)
Definition first_at_end (sep p : bytes) : Prop := forall x y, p ++ sep = x ++ sep ++ y -> y = [].
(* the texts v joined by sep *)
Inductive joined (sep : bytes) : list bytes -> bytes -> Prop :=
| joined_nil : joined sep [] []
| joined_one x : joined sep [x] x
| joined_more x y v s : joined sep (y :: v) s -> joined sep (x :: y :: v) (x ++ sep ++ s).
(* parts that are cut at the first occurrence of sep, then at the first in the rest, ... *)
Inductive cut_parts (sep : bytes) : list bytes -> Prop :=
| cut_last x : ~ occurs sep x -> cut_parts sep [x]
| cut_more x v : first_at_end sep x -> cut_parts sep v -> cut_parts sep (x :: v).

(* the runes that can be encoded: not surrogates *)
Definition rune (r : Z) : Prop := 0 <= r <= 55295 \/ 57344 <= r <= 1114111.
(* the UTF-8 encoding of a sequence of runes *)
Definition utf8 (rs : list Z) : bytes := concat (map encodeRune rs).
Definition valid_utf8 (s : bytes) : Prop := exists rs, Forall rune rs /\ s = utf8 rs.

Section Spec.
  Context (U : unicode).
  Definition spaces (l : list Z) : Prop := Forall (fun r => IsSpace U r = true) l.
  Definition word (l : list Z) : Prop := l <> [] /\ Forall (fun r => IsSpace U r = false) l.
  (* [words rs v]: the text rs consists of the words v, separated by spaces *)
  Inductive words : list Z -> list (list Z) -> Prop :=
  | words_none w : spaces w -> words w []
  | words_last w x : spaces w -> word x -> words (w ++ x) [x]
  | words_more w x c rs v : spaces w -> word x -> IsSpace U c = true -> words rs v -> words (w ++ x ++ c :: rs) (x :: v).
End Spec.
