(* S_Big.v -- what the theorems about numbers behind pointers speak of. *)
From Coq Require Import String QArith.
From Verif Require Import Base M_Array S_Array Eff M_Number M_Big.
Open Scope Z_scope.

(* every number that existed before still has its value *)
Definition unchanged (h h' : heap) : Prop := forall p c, znth h p = Some c -> znth h' p = Some c.
(* the objects a number consists of *)
Definition objects (v : bval) : list Z :=
  match v with VI p | VR p | VF p => [p] | VC a b => [a; b] | _ => [] end.
(* created after the state h *)
Definition fresh_after (h : heap) (p : Z) : Prop := zlen h <= p.

(* v is an exact number of value q *)
Inductive stands (h : heap) : bval -> Q -> Prop :=
| stands_bool : forall b : bool, stands h (VB b) (inject_Z (if b then 1 else 0))
| stands_small : forall n, minint <= n <= maxint -> stands h (VS n) (inject_Z n)
| stands_int : forall p n, znth h p = Some (CInt n) -> stands h (VI p) (inject_Z n)
| stands_rat : forall p q, znth h p = Some (CRat q) -> Qred q = q -> stands h (VR p) q.
(* a machine integer *)
Definition small (v : bval) : Prop := match v with VB _ | VS _ => True | _ => False end.
(* v is a floating point number of the given precision and value *)
Definition floats (h : heap) (v : bval) (f : flt) : Prop := exists p, v = VF p /\ znth h p = Some (CFlt f).
(* a 64 bit integer can hold it *)
Definition fits_q (q : Q) : Prop := (inject_Z minint <= q /\ q <= inject_Z maxint)%Q.
(* m computes the exact number q and changes nothing else *)
Definition gives (m : eff heap bval) (h : heap) (q : Q) : Prop :=
  exists v h' q', m h = (Ok v, h') /\ stands h' v q' /\ (q' == q)%Q /\ unchanged h h'.
(* rounding to p bits, to nearest, ties to even: the rounding of math/big and,
   with p = 53, of the conversion to float64 (for numbers in its range); used
   for the examples *)
Definition round_even (num den : Z) : Z :=
  let f := num / den in
  match (2 * (num - f * den)) ?= den with Lt => f | Gt => f + 1 | Eq => if Z.even f then f else f + 1 end.
Definition pow2q (e : Z) : Q := if 0 <=? e then inject_Z (2 ^ e) else Qmake 1 (Z.to_pos (2 ^ (- e))).
Definition nearest (p : Z) (q : Q) : Q :=
  let n := Z.abs (Qnum q) in let d := Zpos (Qden q) in
  if n =? 0 then 0%Q else
  let e0 := Z.log2 n - Z.log2 d - p in
  let scale e := if 0 <=? e then (n, d * 2 ^ e) else (n * 2 ^ (- e), d) in
  let '(a0, b0) := scale e0 in
  let e := if 2 ^ p <=? a0 / b0 then e0 + 1 else e0 in
  let '(a, b) := scale e in
  Qred (inject_Z (Z.sgn (Qnum q) * round_even a b) * pow2q e).
Definition round_fl (p : Z) (x : fl) : fl := match x with Fin q => Fin (nearest p q) | i => i end.
(* a root that is right where the argument is a square of a fraction *)
Definition root (p : Z) (q : Q) : fl := Fin (nearest p (Qmake (Z.sqrt (Qnum (Qred q))) (Z.to_pos (Z.sqrt (Zpos (Qden (Qred q))))))).
