(* S_Number.v -- vocabulary for the properties of numbers. *)
From Coq Require Import QArith.
From Verif Require Import Base M_Number.
Open Scope Z_scope.

(* fits in a 64 bit signed integer *)
Definition fits (z : Z) : Prop := - 2 ^ 63 <= z < 2 ^ 63.
(* r is z modulo 2^64, as a 64 bit integer *)
Definition wraps_to (z r : Z) : Prop := fits r /\ exists k, r = z + k * 2 ^ 64.

(* factorial and binomial coefficients (Pascal's rule) *)
Fixpoint factorial (n : nat) : Z := match n with O => 1 | S m => Z.of_nat n * factorial m end.
Fixpoint pascal (n k : nat) : Z :=
  match k, n with
  | O, _ => 1
  | S _, O => 0
  | S k', S n' => pascal n' k' + pascal n' k
  end.
(* generalized binomial coefficient r(r-1)...(r-k+1)/k! for any integer r *)
Fixpoint falling (r : Z) (k : nat) : Z := match k with O => 1 | S k' => r * falling (r - 1) k' end.

(* the class of a number in the tower: Bool and Int are below all others *)
Definition class_of {P} (M : methods P) (t : tower P) (n : num P) : option Z :=
  match n with NB _ => Some (-2) | NI _ => Some (-1) | NT p => option_map Class (assoc (Numbers t) (ptype M p)) end.
(* a' results from a by k conversion steps, each by the conversion that belongs
   to the type of the number at hand *)
Inductive raised {P} (M : methods P) (t : tower P) : nat -> num P -> num P -> Prop :=
| raised_0 a : raised M t 0 a a
| raised_S k p nu a1 a2 : assoc (Numbers t) (ptype M p) = Some nu -> Uptype nu (NT p) = (Some a1, true) ->
    raised M t k a1 a2 -> raised M t (S k) (NT p) a2.
(* a well-formed tower: the classes are 0..n-1, one type per class; a conversion
   that succeeds leads to a number of the next class; the top is not converted *)
Record tower_ok {P} (M : methods P) (t : tower P) : Prop := {
  ok_idx : forall c nu, znth (idx t) c = Some nu -> Class nu = c;
  ok_class : forall ty nu, assoc (Numbers t) ty = Some nu -> znth (idx t) (Class nu) = Some nu;
  ok_inj : forall t1 t2 n1 n2, assoc (Numbers t) t1 = Some n1 -> assoc (Numbers t) t2 = Some n2 -> Class n1 = Class n2 -> t1 = t2;
  ok_up : forall p nu a, assoc (Numbers t) (ptype M p) = Some nu -> snd (Uptype nu (NT p)) = true ->
            fst (Uptype nu (NT p)) = Some a -> class_of M t a = Some (Class nu + 1) /\ exists q, a = NT q;
  ok_some : forall p nu, assoc (Numbers t) (ptype M p) = Some nu -> snd (Uptype nu (NT p)) = true -> fst (Uptype nu (NT p)) <> None;
  ok_import : forall n, exists p, Import t n = NT p /\ (forall q, n = NT q -> p = q);
  ok_len : zlen (idx t) = zlen (Numbers t)
}.

(* the integer value of a Bool or an Int *)
Definition as_int {P} (n : num P) : option Z := match n with NB b => Some (bool2int b) | NI z => Some z | NT _ => None end.
(* the rational value of a number of the exact tower *)
Definition qval (n : num bignum) : Q :=
  match n with NB b => inject_Z (bool2int b) | NI z => inject_Z z | NT (BI z) => inject_Z z | NT (BR q) => q end.
(* the six comparisons in terms of "less" and "equal" *)
Definition cmp_spec (c : cmp) (lt eq gt : Prop) : Prop :=
  match c with CEq => eq | CLt => lt | CGt => gt | CNe => ~ eq | CLe => lt \/ eq | CGe => gt \/ eq end.
(* exactly one *)
Definition exactly_one (a b c : Prop) : Prop := (a /\ ~ b /\ ~ c) \/ (~ a /\ b /\ ~ c) \/ (~ a /\ ~ b /\ c).
