(* S_Domino.v -- specification of matrix divide: exact numbers, linear systems. *)
From Verif Require Import Base M_Array S_Array.
From Coq Require Export Field_theory.

(* numbers with exact arithmetic: a field, in which the division fails at most for 0; the
   absolute value is 0 for 0 only and < is transitive *)
Record exact_field {F} (zero one : F) (add mul sub : F -> F -> F) (opp inv : F -> F)
  (fdiv : F -> F -> outcome F) (fabs : F -> F) (less : F -> F -> bool) (iszero : F -> bool) : Prop := {
  ef_field : field_theory zero one add mul sub opp (fun x y => mul x (inv y)) inv eq;
  ef_div : forall x y, y <> zero -> fdiv x y = Ok (mul x (inv y));
  ef_abs : forall x, less zero (fabs x) = true <-> x <> zero;
  ef_trans : forall x y z, less x y = true -> less y z = true -> less x z = true;
  ef_iszero : forall x, iszero x = true <-> x = zero;
  ef_irrefl : less zero zero = false }.

Section Linear.
  Context {F : Type} (zero : F) (add mul : F -> F -> F).
  (* the sum of f 0 .. f (n-1) *)
  Fixpoint total (n : nat) (f : nat -> F) : F := match n with O => zero | S n' => add (total n' f) (f n') end.
  (* row i of A times x *)
  Definition row_times (n : nat) (A : nat -> nat -> F) (x : nat -> F) (i : nat) : F := total n (fun k => mul (A i k) (x k)).
  (* some combination of the columns of A, which is not trivial, is 0 *)
  Definition dependent (rows n : nat) (A : nat -> nat -> F) : Prop :=
    exists v, (exists i, (i < n)%nat /\ v i <> zero) /\ forall i, (i < rows)%nat -> row_times n A v i = zero.
  (* the element in row i and column k of an array with [cols] columns *)
  Definition entry (a : arr F) (cols i k : nat) : F := nth (i * cols + k) (elems a) zero.
End Linear.

(* squares are not negative, and only 0 is neither positive nor negative *)
Record nonneg_order {F} (zero : F) (add mul : F -> F -> F) (opp : F -> F) (nonneg : F -> Prop) : Prop := {
  no_square : forall x, nonneg (mul x x);
  no_add : forall x y, nonneg x -> nonneg y -> nonneg (add x y);
  no_anti : forall x, nonneg x -> nonneg (opp x) -> x = zero }.
