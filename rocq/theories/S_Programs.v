(* S_Programs.v -- what the programs of TESTS.md are to compute: prime numbers and Conway's
   game of life.  Nothing here refers to the model functions. *)
From Coq Require Import ZArith List Bool Znumtheory.
From Verif Require Import Base M_Array S_Array M_Number S_Number.
Import ListNotations.
Open Scope Z_scope.

(* l lists exactly the primes p <= n, in ascending order *)
Definition primes_to (n : Z) (l : list Z) : Prop :=
  (forall p, In p l <-> prime p /\ p <= n) /\ forall i j x y, i < j -> znth l i = Some x -> znth l j = Some y -> x < y.

(* a board: r rows of c cells, each 0 or 1 *)
Definition truth_value {P} (v : sval P) (b : bool) : Prop := exists n, v = VNum n /\ as_int n = Some (if b then 1 else 0).
Definition board {P} (r c : Z) (cell : Z -> Z -> bool) (a : arr (sval P)) : Prop :=
  wf a /\ dims a = [r; c] /\ forall i j, 0 <= i < r -> 0 <= j < c -> exists v, elem a [i; j] = Some v /\ truth_value v (cell i j).
(* the cells outside of the board are dead *)
Definition inside (r c : Z) (cell : Z -> Z -> bool) (i j : Z) : bool := (0 <=? i) && (i <? r) && (0 <=? j) && (j <? c) && cell i j.
(* the eight neighbours of a cell *)
Definition neighbours (i j : Z) : list (Z * Z) :=
  [(i - 1, j - 1); (i - 1, j); (i - 1, j + 1); (i, j - 1); (i, j + 1); (i + 1, j - 1); (i + 1, j); (i + 1, j + 1)].
Definition living (r c : Z) (cell : Z -> Z -> bool) (i j : Z) : nat :=
  length (filter (fun p => inside r c cell (fst p) (snd p)) (neighbours i j)).
(* Conway's rule: born with three neighbours, survives with two or three *)
Definition next_generation (r c : Z) (cell : Z -> Z -> bool) (i j : Z) : bool :=
  match living r c cell i j with 3%nat => true | 2%nat => cell i j | _ => false end.
