(* S_Complex.v -- vocabulary for the properties of complex numbers. *)
From Coq Require Import ZArith Reals List Floats.SpecFloat.
From Flocq Require Import Core.Core IEEE754.BinarySingleNaN.
From Verif Require Import Base M_Complex P_Float.
Open Scope R_scope.

(* [P_Float.repr f x]: the double f is finite and is the real number x. *)
(* the same number: equal, or both zero (zeros have a sign) *)
Definition sameF (x y : spec_float) : Prop := x = y \/ exists s t, x = S754_zero s /\ y = S754_zero t.
Definition same (z w : cplx) : Prop := sameF (re z) (re w) /\ sameF (im z) (im w).
Definition finiteF (x : spec_float) : Prop := exists r, repr x r.
Definition finite (z : cplx) : Prop := finiteF (re z) /\ finiteF (im z).

(* some double is the real number r *)
Definition double (r : R) : Prop := exists f, repr f r.
(* the part of x behind its integer part *)
Definition frac (x : R) : R := x - IZR (Zfloor x).
(* APL2 (McDonnell): the floor of x + y i is i + j i *)
Definition complex_floor (x y : R) (i j : Z) : Prop :=
  (frac x + frac y < 1 -> i = Zfloor x /\ j = Zfloor y) /\
  (1 <= frac x + frac y -> frac y <= frac x -> i = (Zfloor x + 1)%Z /\ j = Zfloor y) /\
  (1 <= frac x + frac y -> frac x < frac y -> i = Zfloor x /\ j = (Zfloor y + 1)%Z).
