(* Prop_Programs.v -- C163: the documented programs of TESTS.md compute what they are to compute:
   the two prime number programs list the primes, the game of life follows Conway's rule. *)
From Coq Require Import List Bool ZArith Lia Znumtheory Floats.SpecFloat.
From Verif Require Import Base Eff M_Array S_Array P_Array M_Structural M_Search M_Number S_Number M_Scalar M_Operators S_Operators P_Operators
  Prop_Operators M_Programs S_Programs P_Programs P_Programs2 P_Programs3.
Import ListNotations.
Open Scope list_scope. Open Scope Z_scope.

(* {(2=+⌿0=X∘.|X)⌿X←⍳⍵} n with ⎕IO 1 and the default numbers *)
Theorem C163_primes :
  forall (C T : Type) (cM : methods C) (tM : methods T) (f2c : spec_float -> C) (c2t : C -> option T) (has_uniform : ntype -> bool) n,
  1 <= n <= 2 ^ 52 ->
  exists l, primes (dM cM tM) (dT f2c c2t) has_uniform n = Ok (Arr (vec (map int l))) /\ primes_to n l.
Proof.
  intros C T cM tM f2c c2t hu n Hn. eexists. split; [apply primes_runs; exact Hn|]. split.
  - intros p. rewrite filter_In, In_from, Z.eqb_eq. pose proof (prime_two n p) as Q. unfold zlen. split.
    + intros ((H1 & H2) & H3). split; [apply Q; lia|lia].
    + intros (H1 & H2). pose proof (prime_ge_2 p H1). split; [lia|]. apply Q in H1; lia.
  - intros i j x y. apply filter_ascending.
Qed.
Print Assumptions C163_primes.

(* {(~X∊X∘.×X)⌿X←2↓⍳⍵} n with ⎕IO 0 and any numbers *)
Theorem C163_sieve :
  forall (P : Type) (M : methods P) (t : tower P) (has_uniform : ntype -> bool) n,
  3 <= n <= 2 ^ 31 ->
  exists l, sieve M t has_uniform n = Ok (Arr (vec (map int l))) /\ primes_to (n - 1) l.
Proof.
  intros P M t hu n Hn. eexists. split; [apply sieve_runs; exact Hn|]. split.
  - intros p. rewrite filter_In, In_from, negb_true_iff. pose proof (prime_products n p) as Q.
    assert (E : composite n p = true <-> exists a b, 2 <= a < n /\ 2 <= b < n /\ p = a * b).
    { unfold composite. rewrite existsb_exists. split.
      - intros ((a & b) & Hi & He). apply in_prod_iff in Hi. rewrite !In_from in Hi. apply Z.eqb_eq in He. exists a, b. cbn [fst snd] in He. repeat split; try lia; exact He.
      - intros (a & b & Ha & Hb & He). exists (a, b). split; [apply in_prod_iff; rewrite !In_from; lia|]. apply Z.eqb_eq. exact He. }
    rewrite <- not_true_iff_false, E. split.
    + intros (H1 & H2). split; [apply Q; [lia|exact H2]|lia].
    + intros (H1 & H2). pose proof (prime_ge_2 p H1). split; [lia|]. apply Q; [lia|exact H1].
  - intros i j x y. apply filter_ascending.
Qed.
Print Assumptions C163_sieve.

(* l←{3=S-⍵∧4=S←({+/,⍵}⌺3 3)⍵}: one generation, on a board of any size *)
Theorem C163_life :
  forall (P : Type) (M : methods P) (t : tower P) (has_uniform : ntype -> bool) r c cell (a : arr (sval P)),
  1 <= r -> 1 <= c -> board r c cell a ->
  exists a', life M t has_uniform (Arr a) = Ok (Arr a') /\ board r c (next_generation r c cell) a'.
Proof. intros. eapply life_step; eassumption. Qed.
Print Assumptions C163_life.

(* (l⍣n): n generations *)
Theorem C163_generations :
  forall (P : Type) (M : methods P) (t : tower P) (has_uniform : ntype -> bool) r c cell n (a : arr (sval P)),
  1 <= r -> 1 <= c -> board r c cell a -> 0 <= n ->
  exists a', generations M t has_uniform n (Arr a) = Ok (Arr a') /\ board r c (Nat.iter (Z.to_nat n) (next_generation r c) cell) a'.
Proof.
  intros P M t hu r c cell n a Hr Hc B Hn. unfold generations, pure. rewrite C41_power_iterates by exact Hn.
  induction (Z.to_nat n) as [|k (a1 & E & B1)].
  - exists a. split; [reflexivity|exact B].
  - destruct (C163_life P M t hu r c _ a1 Hr Hc B1) as (a2 & E2 & B2). exists a2. split; [|exact B2].
    cbn [iterE]. unfold ebind. destruct (iterE _ k (Arr a) _) as (o, s) eqn:I. cbn [fst] in E. subst o. cbn. exact E2.
Qed.
Print Assumptions C163_generations.

(* f 0 does not give the empty list: the outer product of an empty array panics *)
Theorem C163_empty_refuted :
  forall (P : Type) (M : methods P) (t : tower P) (has_uniform : ntype -> bool),
  primes M t has_uniform 0 = Panic /\ forall n, n < 0 -> primes M t has_uniform n = Err.
Proof.
  intros P M t hu. split; [reflexivity|]. intros n Hn. unfold primes, iota, interval.
  replace (n <? 0) with true by (symmetry; apply Z.ltb_lt; exact Hn). reflexivity.
Qed.
Print Assumptions C163_empty_refuted.

(* the glider of TESTS.md moves by one row and one column in four generations, and the sieve of 42 *)
Definition glider_cells (i j : Z) : bool := match i, j with 0, 2 | 1, 0 | 1, 2 | 2, 1 | 2, 2 => true | _, _ => false end.
Definition glider : arr (sval unit) := mkArr [5; 5] (map (fun q => match q with [i; j] => VNum (NB (glider_cells i j)) | _ => int 0 end) (all_idx [5; 5])).
Example C163_example (M : methods unit) (t : tower unit) (hu : ntype -> bool) :
  board 5 5 glider_cells glider /\
  map (fun q => match q with [i; j] => Nat.iter 4 (next_generation 5 5) glider_cells i j | _ => true end) (all_idx [5; 5])
    = map (fun q => match q with [i; j] => glider_cells (i - 1) (j - 1) | _ => true end) (all_idx [5; 5]) /\
  sieve M t hu 42 = Ok (Arr (vec (map int [2; 3; 5; 7; 11; 13; 17; 19; 23; 29; 31; 37; 41]))).
Proof.
  split; [|split].
  - split; [apply wf_build; [discriminate|repeat constructor; lia]|]. split; [reflexivity|]. intros i j Hi Hj. eexists. split.
    + apply elem_build. repeat constructor; lia.
    + exists (NB (glider_cells i j)). split; reflexivity.
  - vm_compute. reflexivity.
  - rewrite sieve_runs by lia. match goal with |- Ok (Arr (vec (map int ?l))) = _ => let x := eval vm_compute in l in change l with x end. reflexivity.
Qed.
