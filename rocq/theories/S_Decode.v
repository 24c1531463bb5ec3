(* S_Decode.v -- positional number systems on integers, and what it means that an
   arithmetic computes with integers.  Nothing here refers to encode or decode. *)
From Verif Require Import Base M_Array S_Array M_Structural M_Decode.
Open Scope Z_scope.

Definition product (l : list Z) : Z := fold_right Z.mul 1 l.
(* the digits of N in the mixed radix L: the weight of a digit is the product of the
   radices to its right *)
Fixpoint digits (L : list Z) (N : Z) : list Z :=
  match L with [] => [] | l :: L' => (N / product L') mod l :: digits L' N end.
(* the value of the digits D in the mixed radix L *)
Fixpoint value (L D : list Z) : Z :=
  match L, D with _ :: L', d :: D' => d * product L' + value L' D' | _, _ => 0 end.
(* positive radices; the first one may be 0 (no upper limit) *)
Definition radix (L : list Z) : Prop :=
  match L with [] => True | l :: L' => 0 <= l /\ Forall (fun x => 0 < x) L' end.

(* the scalars v that stand for the integer z ([den v z]) are computed with exactly,
   as long as all integers involved are at most B in absolute value *)
Record exact_arith {V} (ops : arith V) (den : V -> Z -> Prop) (B : Z) : Prop := {
  ex_int : forall z, 0 <= z <= 1 -> den (a_int ops z) z;
  ex_add : forall x y i j, den x i -> den y j -> Z.abs i <= B -> Z.abs j <= B -> Z.abs (i + j) <= B ->
           exists v, a_add ops x y = Ok v /\ den v (i + j);
  ex_sub : forall x y i j, den x i -> den y j -> Z.abs i <= B -> Z.abs j <= B -> Z.abs (i - j) <= B ->
           exists v, a_sub ops x y = Ok v /\ den v (i - j);
  ex_mul : forall x y i j, den x i -> den y j -> Z.abs i <= B -> Z.abs j <= B -> Z.abs (i * j) <= B ->
           exists v, a_mul ops x y = Ok v /\ den v (i * j);
  ex_div : forall x y q j, den x (q * j) -> den y j -> 0 < j -> Z.abs (q * j) <= B -> Z.abs j <= B ->
           exists v, a_div ops x y = Ok v /\ den v q;
  ex_floor : forall x y i j, den x i -> den y j -> 0 < j -> Z.abs i <= B -> Z.abs j <= B ->
           exists w v, a_div ops x y = Ok w /\ a_floor ops w = Ok v /\ den v (i / j);
  ex_mod : forall x y j i, den x j -> den y i -> 0 <= j -> Z.abs i <= B -> Z.abs j <= B ->
           exists v, a_mod ops x y = Ok v /\ den v (i mod j);
  ex_zerop : forall x i, den x i -> Z.abs i <= B -> a_zerop ops x = Ok (i =? 0)
}.

(* v is the integer array a; a scalar is an array without axes *)
Definition stands {V} (den : V -> Z -> Prop) (v : val V) (a : arr Z) : Prop :=
  match v with
  | Scal x => exists N, den x N /\ a = mkArr [] [N]
  | Emp => False
  | Arr b => wf b /\ dims b = dims a /\ Forall2 den (elems b) (elems a)
  end.
(* all numbers that occur in the evaluation of the digits D from the right are at most B *)
Fixpoint bounded (B : Z) (L D : list Z) : Prop :=
  match L, D with
  | l :: L', d :: D' =>
      Z.abs l <= B /\ Z.abs d <= B /\ Z.abs (product L') <= B /\ Z.abs (d * product L') <= B /\ Z.abs (value (l :: L') (d :: D')) <= B /\ bounded B L' D'
  | _, _ => True
  end.
(* a number stands for the vector of length 1 *)
Definition promote {A} (a : arr A) : arr A := match dims a with [] => mkArr [1] (elems a) | _ => a end.
(* a single radix (or digit) is used for all n positions *)
Definition fit (n : Z) (l : list Z) : list Z := match l with [x] => repeat x (Z.to_nat n) | _ => l end.
(* a radix vector and a number that can be represented without exceeding B *)
Definition representable (B : Z) (L : list Z) (N : Z) : Prop :=
  radix L /\ Z.abs N + hd 0 L <= B /\ Z.abs N + product (tl L) <= B.
