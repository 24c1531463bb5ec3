(* S_Radix.v -- specification: numerals in a base, without the model of the formatter. *)
From Verif Require Import Base M_Scan.
(* the value of digits, the first the most significant *)
Definition horner (base : Z) (ds : list Z) : Z := fold_left (fun n d => n * base + d) ds 0.
(* the sign for the digit d: 0..9 and A..Z *)
Definition glyph (d : Z) : Z := if d <? 10 then 48 + d else 65 + (d - 10).
(* [numeral base n t]: t is n (not negative) in the base, without superfluous zeros in front *)
Definition numeral (base n : Z) (t : text) : Prop :=
  exists ds, t = map glyph ds /\ Forall (fun d => 0 <= d < base) ds /\ horner base ds = n
  /\ (ds = [0] \/ exists d ds', ds = d :: ds' /\ d <> 0).
