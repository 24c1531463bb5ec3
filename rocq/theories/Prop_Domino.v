(* Prop_Domino.v -- ⌹: linear systems and inverses (C114), least squares (C115). *)
From Coq Require Import QArith Qcanon Qcabs Lia PeanoNat Field.
From Verif Require Import Base M_Array S_Array P_Array M_Domino S_Domino P_Domino P_Domino2.
Local Close Scope Q_scope. Local Open Scope Z_scope.

Section C114.
  Context {F : Type} (zero one : F) (add mul sub : F -> F -> F) (opp inv : F -> F)
    (fdiv : F -> F -> outcome F) (fabs conj : F -> F) (less : F -> F -> bool) (iszero : F -> bool)
    (X : exact_field zero one add mul sub opp inv fdiv fabs less iszero).
  Let Fth := ef_field _ _ _ _ _ _ _ _ _ _ _ X.
  Add Field Ffield3 : Fth.
  Local Notation entry := (entry zero).
  Local Notation total := (total zero add).
  Local Notation row_times := (row_times zero add mul).
  Local Notation dependent := (dependent zero add mul).
  Local Notation domino2 := (domino2 zero add mul sub fdiv fabs conj less iszero).
  Local Notation domino := (domino zero one add mul sub fdiv fabs conj less iszero).
  (* a rows by cols array *)
  Definition is_matrix (a : arr F) (rows cols : nat) : Prop := wf a /\ dims a = [Z.of_nat rows; Z.of_nat cols].

  Lemma square_solve : forall (L R : arr F) n m, is_matrix R n n -> (2 <= n)%nat ->
    is_matrix L n m \/ (m = 1%nat /\ wf L /\ dims L = [Z.of_nat n]) ->
    domino2 L R = solve zero mul sub fdiv fabs less iszero n m (entry R n) (entry L m).
  Proof.
    intros L R n m (WR & DR) Hn HL. unfold M_Domino.domino2.
    destruct WR as (_ & _ & SR). rewrite DR in SR. cbn [size] in SR.
    replace (zlen (elems R) =? 1) with false by nia. rewrite DR. rewrite Z.ltb_irrefl.
    assert (E : (match dims L with [l] => Ok (l, 1) | [l; m] => Ok (l, m) | _ => Err end) = Ok (Z.of_nat n, Z.of_nat m)).
    { destruct HL as [(_ & ->)|(-> & _ & ->)]; reflexivity. }
    rewrite E. cbn [obind fst snd]. rewrite Z.eqb_refl. cbn [negb]. rewrite !Nat2Z.id. reflexivity.
  Qed.
  (* the quotient solves the system for every column of the left argument *)
  Theorem C114_solves : forall L R n m, is_matrix R n n -> (2 <= n)%nat ->
    is_matrix L n m \/ (m = 1%nat /\ wf L /\ dims L = [Z.of_nat n]) ->
    forall Y, domino2 L R = Ok Y ->
    is_matrix Y n m /\ forall i k, (i < n)%nat -> (k < m)%nat -> row_times n (entry R n) (fun j => entry Y m j k) i = entry L m i k.
  Proof.
    intros L R n m HR Hn HL Y H. rewrite (square_solve L R n m HR Hn HL) in H.
    destruct (solve_spec zero one add mul sub opp inv fdiv fabs less iszero X n m (entry R n) (entry L m)) as [(Y' & E1 & E2 & E3 & E4 & _)|(E1 & _)]; rewrite E1 in H; [|discriminate].
    injection H as <-. split; [split; assumption|exact E4].
  Qed.
  (* it is the only solution *)
  Theorem C114_unique : forall L R n m, is_matrix R n n -> (2 <= n)%nat ->
    is_matrix L n m \/ (m = 1%nat /\ wf L /\ dims L = [Z.of_nat n]) ->
    forall Y, domino2 L R = Ok Y ->
    forall k y, (k < m)%nat -> (forall i, (i < n)%nat -> row_times n (entry R n) y i = entry L m i k) -> forall i, (i < n)%nat -> y i = entry Y m i k.
  Proof.
    intros L R n m HR Hn HL Y H k y Hk Hy. rewrite (square_solve L R n m HR Hn HL) in H.
    destruct (solve_spec zero one add mul sub opp inv fdiv fabs less iszero X n m (entry R n) (entry L m)) as [(Y' & E1 & E2 & E3 & E4 & E5)|(E1 & _)]; rewrite E1 in H; [|discriminate].
    injection H as <-. intros i Hi.
    assert (Z0 : sub (y i) (entry Y' m i k) = zero).
    { apply (E5 (fun j => sub (y j) (entry Y' m j k))); [|exact Hi]. intros r Hr.
      pose proof (E4 r k Hr Hk) as A1. pose proof (Hy r Hr) as A2. unfold S_Domino.row_times in *.
      rewrite (total_ext zero one add mul sub opp inv fdiv fabs less iszero X n _ (fun j => add (mul (entry R n r j) (y j)) (mul (opp one) (mul (entry R n r j) (entry Y' m j k))))).
      - rewrite (total_add zero one add mul sub opp inv fdiv fabs less iszero X).
        rewrite (total_mul_l zero one add mul sub opp inv fdiv fabs less iszero X). rewrite A1, A2. ring.
      - intros j _. ring. }
    transitivity (add (sub (y i) (entry Y' m i k)) (entry Y' m i k)); [ring|]. rewrite Z0. ring.
  Qed.
  (* the error "matrix is singular" is given for the matrices with dependent columns, and for no other *)
  Theorem C114_singular : forall L R n m, is_matrix R n n -> (2 <= n)%nat ->
    is_matrix L n m \/ (m = 1%nat /\ wf L /\ dims L = [Z.of_nat n]) ->
    (domino2 L R = Err <-> dependent n n (entry R n)) /\ (domino2 L R = Err \/ exists Y, domino2 L R = Ok Y).
  Proof.
    intros L R n m HR Hn HL. rewrite (square_solve L R n m HR Hn HL).
    destruct (solve_spec zero one add mul sub opp inv fdiv fabs less iszero X n m (entry R n) (entry L m)) as [(Y' & E1 & _ & _ & _ & E5)|(E1 & D)]; rewrite E1.
    - split; [|right; exists Y'; reflexivity]. split; [discriminate|]. intros (v & (i & Hi & Nz) & Hv). exfalso. apply Nz. apply E5; assumption.
    - split; [|left; reflexivity]. split; [intros _; exact D|reflexivity].
  Qed.
  (* the inverse, on both sides *)
  Theorem C114_inverse : forall R n Y, is_matrix R n n -> (2 <= n)%nat -> domino R = Ok Y ->
    is_matrix Y n n /\ forall i k, (i < n)%nat -> (k < n)%nat ->
      row_times n (entry R n) (fun j => entry Y n j k) i = (if (i =? k)%nat then one else zero) /\
      row_times n (entry Y n) (fun j => entry R n j k) i = (if (i =? k)%nat then one else zero).
  Proof.
    intros R n Y HR Hn H. unfold M_Domino.domino in H. destruct HR as (WR & DR). rewrite DR in H. rewrite Z.eqb_refl in H. cbn [negb] in H. rewrite Nat2Z.id in H.
    set (I := array_of n n (fun i k => if (i =? k)%nat then one else zero)) in *.
    assert (HI : is_matrix I n n) by (split; [apply (array_of_wf zero one add mul sub opp inv fdiv fabs less iszero X)|reflexivity]).
    destruct (C114_solves I R n n (Logic.conj WR DR) Hn (or_introl HI) Y H) as (MY & S1). split; [exact MY|].
    assert (RY : forall i k, (i < n)%nat -> (k < n)%nat -> row_times n (entry R n) (fun j => entry Y n j k) i = (if (i =? k)%nat then one else zero)).
    { intros i k Hi Hk. rewrite S1 by assumption. unfold I. rewrite (entry_array_of zero one add mul sub opp inv fdiv fabs less iszero X) by assumption. reflexivity. }
    intros i k Hi Hk. split; [apply RY; assumption|].
    (* the columns of R (Y R) and R are the same, so are those of Y R and I *)
    rewrite (square_solve I R n n (Logic.conj WR DR) Hn (or_introl HI)) in H.
    destruct (solve_spec zero one add mul sub opp inv fdiv fabs less iszero X n n (entry R n) (entry I n)) as [(Y' & E1 & _ & _ & _ & E5)|(E1 & _)]; rewrite E1 in H; [|discriminate].
    assert (Z0 : sub (row_times n (entry Y n) (fun j => entry R n j k) i) (if (i =? k)%nat then one else zero) = zero).
    { apply (E5 (fun i => sub (row_times n (entry Y n) (fun j => entry R n j k) i) (if (i =? k)%nat then one else zero))); [|exact Hi]. intros r Hr.
      unfold S_Domino.row_times at 1.
      rewrite (total_ext zero one add mul sub opp inv fdiv fabs less iszero X n _
        (fun j => add (total n (fun t => mul (mul (entry R n r j) (entry Y n j t)) (entry R n t k))) (mul (opp one) (mul (entry R n r j) (if (j =? k)%nat then one else zero))))).
      - rewrite (total_add zero one add mul sub opp inv fdiv fabs less iszero X).
        rewrite (total_mul_l zero one add mul sub opp inv fdiv fabs less iszero X).
        assert (T2 : total n (fun j => mul (entry R n r j) (if (j =? k)%nat then one else zero)) = entry R n r k).
        { rewrite (total_one zero one add mul sub opp inv fdiv fabs less iszero X n k); [rewrite Nat.eqb_refl; ring|exact Hk|].
          intros j Hj Nj. replace (j =? k)%nat with false by (symmetry; apply Nat.eqb_neq; exact Nj). ring. }
        rewrite T2. rewrite (total_swap zero one add mul sub opp inv fdiv fabs less iszero X).
        rewrite (total_ext zero one add mul sub opp inv fdiv fabs less iszero X n _ (fun t => mul (if (r =? t)%nat then one else zero) (entry R n t k))).
        + rewrite (total_one zero one add mul sub opp inv fdiv fabs less iszero X n r); [rewrite Nat.eqb_refl; ring|exact Hr|].
          intros t Ht Nt. replace (r =? t)%nat with false by (symmetry; apply Nat.eqb_neq; lia). cbv beta iota. ring.
        + intros t Ht. rewrite (total_mul_r zero one add mul sub opp inv fdiv fabs less iszero X). f_equal. exact (RY r t Hr Ht).
      - intros j Hj. unfold S_Domino.row_times.
        rewrite (total_ext zero one add mul sub opp inv fdiv fabs less iszero X n (fun t => mul (mul (entry R n r j) (entry Y n j t)) (entry R n t k)) (fun t => mul (entry R n r j) (mul (entry Y n j t) (entry R n t k)))) by (intros; ring).
        rewrite (total_mul_l zero one add mul sub opp inv fdiv fabs less iszero X). ring. }
    transitivity (add (sub (row_times n (entry Y n) (fun j => entry R n j k) i) (if (i =? k)%nat then one else zero)) (if (i =? k)%nat then one else zero)); [ring|].
    rewrite Z0. ring.
  Qed.
  (* wrong shapes are errors *)
  Theorem C114_shapes : forall L R, zlen (elems R) <> 1 ->
    (zlen (dims R) <> 2 -> domino2 L R = Err) /\
    (forall r c, dims R = [r; c] -> r < c -> domino2 L R = Err) /\
    (forall r c, dims R = [r; c] -> zlen (dims L) <> 1 -> zlen (dims L) <> 2 -> domino2 L R = Err) /\
    (forall r c l s, dims R = [r; c] -> dims L = l :: s -> l <> r -> domino2 L R = Err) /\
    (forall r c, dims R = [r; c] -> r <> c -> domino R = Err).
  Proof.
    intros L R S1. assert (S2 : (zlen (elems R) =? 1) = false) by lia. split; [|split; [|split; [|split]]].
    - intros H. unfold M_Domino.domino2. rewrite S2. destruct (dims R) as [|a [|b [|c s]]]; try reflexivity. exfalso. apply H. reflexivity.
    - intros r c D H. unfold M_Domino.domino2. rewrite S2, D. replace (r <? c) with true by lia. reflexivity.
    - intros r c D H1 H2. unfold M_Domino.domino2. rewrite S2, D. destruct (r <? c); [reflexivity|].
      destruct (dims L) as [|a [|b [|d s]]]; try reflexivity; [exfalso; apply H1; reflexivity|exfalso; apply H2; reflexivity].
    - intros r c l s D DL H. unfold M_Domino.domino2. rewrite S2, D, DL. destruct (r <? c); [reflexivity|].
      destruct s as [|b [|d s]]; cbn [obind fst]; [| |reflexivity]; replace (l =? r) with false by lia; reflexivity.
    - intros r c D H. unfold M_Domino.domino. rewrite D. replace (r =? c) with false by lia. reflexivity.
  Qed.
  (* a single number: L÷R if L has one element *)
  Theorem C114_single : forall L R x y, elems L = [x] -> elems R = [y] -> y <> zero ->
    domino2 L R = Ok (mkArr (dims L) [mul x (inv y)]).
  Proof.
    intros L R x y EL ER N. unfold M_Domino.domino2, divide_elements. rewrite ER, EL. change (zlen [y] =? 1) with true. cbn iota.
    change (zseq (zlen [x])) with [0]. cbn [mapM]. change (zat [x] 0) with (Ok x). change (zat [y] 0) with (Ok y). cbn [obind]. rewrite (ef_div _ _ _ _ _ _ _ _ _ _ _ X) by exact N. reflexivity.
  Qed.
  (* ⌹ of a vector inverts its elements *)
  Theorem C114_vector : forall R n, dims R = [n] -> (forall y, In y (elems R) -> y <> zero) ->
    domino R = Ok (mkArr [n] (map inv (elems R))).
  Proof.
    intros R n D N. unfold M_Domino.domino. rewrite D.
    rewrite (mapM_ok_map _ inv); [reflexivity|]. intros y Hy. rewrite (ef_div _ _ _ _ _ _ _ _ _ _ _ X) by (apply N; exact Hy). f_equal. apply (Rmul_1_l (F_R (ef_field _ _ _ _ _ _ _ _ _ _ _ X))).
  Qed.
  (* but L⌹5 fails for every other L *)
  Theorem C114_single_refuted : forall L R y, elems R = [y] -> y <> zero -> 2 <= zlen (elems L) -> domino2 L R = Panic.
  Proof.
    intros L R y ER N H. unfold M_Domino.domino2, divide_elements. rewrite ER. change (zlen [y] =? 1) with true. cbn iota.
    destruct (elems L) as [|a [|b l]]; [cbn in H; lia|cbn in H; lia|].
    assert (Q : exists q, zseq (zlen (a :: b :: l)) = 0 :: 1 :: q).
    { unfold zseq, zlen. rewrite Nat2Z.id. cbn [length seq map]. eexists. reflexivity. }
    destruct Q as (q & ->). cbn [mapM]. change (zat (a :: b :: l) 0) with (Ok a). change (zat [y] 0) with (Ok y). cbn [obind].
    rewrite (ef_div _ _ _ _ _ _ _ _ _ _ _ X) by exact N. reflexivity.
  Qed.

  (* ---------- least squares ---------- *)
  Local Notation normal R rows cols := (fun i j => total rows (fun t => mul (conj (entry R cols t i)) (entry R cols t j))).
  Lemma tall_solve : forall (L R : arr F) rows cols m, is_matrix R rows cols -> (2 <= rows)%nat -> (1 <= cols < rows)%nat ->
    is_matrix L rows m \/ (m = 1%nat /\ wf L /\ dims L = [Z.of_nat rows]) ->
    exists A B, domino2 L R = solve zero mul sub fdiv fabs less iszero cols m A B /\
      (forall i j, A i j = total rows (fun t => mul (conj (entry R cols t i)) (entry R cols t j))) /\
      (forall i k, B i k = total rows (fun t => mul (conj (entry R cols t i)) (entry L m t k))).
  Proof.
    intros L R rows cols m (WR & DR) Hn Hc HL. unfold M_Domino.domino2.
    destruct WR as (_ & _ & SR). rewrite DR in SR. cbn [size] in SR.
    replace (zlen (elems R) =? 1) with false by nia. rewrite DR. replace (Z.of_nat rows <? Z.of_nat cols) with false by lia.
    assert (E : (match dims L with [l] => Ok (l, 1) | [l; m] => Ok (l, m) | _ => Err end) = Ok (Z.of_nat rows, Z.of_nat m)).
    { destruct HL as [(_ & ->)|(-> & _ & ->)]; reflexivity. }
    rewrite E. cbn [obind fst snd]. rewrite Z.eqb_refl. cbn [negb]. rewrite !Nat2Z.id. replace (Z.of_nat cols <? Z.of_nat rows) with true by lia.
    eexists. eexists. split; [reflexivity|]. split; intros i k; apply (mmul_total zero one add mul sub opp inv fdiv fabs less iszero X).
  Qed.
  (* the normal equations *)
  Theorem C115_normal : forall L R rows cols m, is_matrix R rows cols -> (2 <= rows)%nat -> (1 <= cols < rows)%nat ->
    is_matrix L rows m \/ (m = 1%nat /\ wf L /\ dims L = [Z.of_nat rows]) ->
    forall Y, domino2 L R = Ok Y -> is_matrix Y cols m /\
    forall i k, (i < cols)%nat -> (k < m)%nat ->
      total rows (fun t => mul (conj (entry R cols t i)) (row_times cols (entry R cols) (fun j => entry Y m j k) t)) =
      total rows (fun t => mul (conj (entry R cols t i)) (entry L m t k)).
  Proof.
    intros L R rows cols m HR Hn Hc HL Y H. destruct (tall_solve L R rows cols m HR Hn Hc HL) as (A & B & E & EA & EB). rewrite E in H.
    destruct (solve_spec zero one add mul sub opp inv fdiv fabs less iszero X cols m A B) as [(Y' & E1 & E2 & E3 & E4 & _)|(E1 & _)]; rewrite E1 in H; [|discriminate].
    injection H as <-. split; [split; assumption|]. intros i k Hi Hk. rewrite <- EB, <- (E4 i k Hi Hk). unfold S_Domino.row_times.
    rewrite (total_ext zero one add mul sub opp inv fdiv fabs less iszero X rows _ (fun t => total cols (fun j => mul (mul (conj (entry R cols t i)) (entry R cols t j)) (entry Y' m j k)))).
    - rewrite (total_swap zero one add mul sub opp inv fdiv fabs less iszero X). apply (total_ext zero one add mul sub opp inv fdiv fabs less iszero X).
      intros j Hj. rewrite EA. apply (total_mul_r zero one add mul sub opp inv fdiv fabs less iszero X).
    - intros t Ht. rewrite <- (total_mul_l zero one add mul sub opp inv fdiv fabs less iszero X). apply (total_ext zero one add mul sub opp inv fdiv fabs less iszero X). intros j _. ring.
  Qed.
  Section Real.
    Context (nonneg : F -> Prop) (O : nonneg_order zero add mul opp nonneg) (real : forall x, conj x = x).
    (* the square of the distance between R times x and column k of L *)
    Definition distance2 (L R : arr F) (rows cols m k : nat) (x : nat -> F) : F :=
      total rows (fun t => let d := sub (row_times cols (entry R cols) x t) (entry L m t k) in mul d d).
    Lemma squares_nonneg : forall (w : nat -> F) n, nonneg (total n (fun t => mul (w t) (w t))).
    Proof.
      intros w. induction n as [|n IH]; cbn [S_Domino.total].
      - replace zero with (mul zero zero) by ring. apply (no_square _ _ _ _ _ O).
      - apply (no_add _ _ _ _ _ O); [exact IH|apply (no_square _ _ _ _ _ O)].
    Qed.
    (* no other vector is closer *)
    Theorem C115_least_squares : forall L R rows cols m, is_matrix R rows cols -> (2 <= rows)%nat -> (1 <= cols < rows)%nat ->
      is_matrix L rows m \/ (m = 1%nat /\ wf L /\ dims L = [Z.of_nat rows]) ->
      forall Y, domino2 L R = Ok Y -> forall k y, (k < m)%nat ->
      nonneg (sub (distance2 L R rows cols m k y) (distance2 L R rows cols m k (fun j => entry Y m j k))).
    Proof.
      intros L R rows cols m HR Hn Hc HL Y H k y Hk. destruct (C115_normal L R rows cols m HR Hn Hc HL Y H) as (_ & NE).
      set (x := fun j => entry Y m j k) in *. set (A := entry R cols) in *. set (b := fun t => entry L m t k) in *.
      set (e := fun t => sub (row_times cols A x t) (b t)). set (d := fun j => sub (y j) (x j)).
      assert (LIN : forall t, row_times cols A y t = add (row_times cols A x t) (row_times cols A d t)).
      { intros t. unfold S_Domino.row_times. rewrite <- (total_add zero one add mul sub opp inv fdiv fabs less iszero X).
        apply (total_ext zero one add mul sub opp inv fdiv fabs less iszero X). intros j _. unfold d. ring. }
      assert (ORT : total rows (fun t => mul (row_times cols A d t) (e t)) = zero).
      { rewrite (total_ext zero one add mul sub opp inv fdiv fabs less iszero X rows _ (fun t => total cols (fun j => mul (d j) (mul (A t j) (e t))))).
        - rewrite (total_swap zero one add mul sub opp inv fdiv fabs less iszero X). apply (total_zero zero one add mul sub opp inv fdiv fabs less iszero X).
          intros j Hj. rewrite (total_mul_l zero one add mul sub opp inv fdiv fabs less iszero X).
          assert (Z0 : total rows (fun t => mul (A t j) (e t)) = zero); [|rewrite Z0; ring].
          rewrite (total_ext zero one add mul sub opp inv fdiv fabs less iszero X rows _ (fun t => add (mul (conj (A t j)) (row_times cols A x t)) (mul (opp one) (mul (conj (A t j)) (b t))))).
          + rewrite (total_add zero one add mul sub opp inv fdiv fabs less iszero X), (total_mul_l zero one add mul sub opp inv fdiv fabs less iszero X).
            pose proof (NE j k Hj Hk) as NE'. change (fun j0 => entry Y m j0 k) with x in NE'. rewrite NE'. unfold b. ring.
          + intros t _. unfold e. rewrite real. ring.
        - intros t Ht. unfold S_Domino.row_times. rewrite <- (total_mul_r zero one add mul sub opp inv fdiv fabs less iszero X).
          apply (total_ext zero one add mul sub opp inv fdiv fabs less iszero X). intros j _. ring. }
      assert (EQ : sub (distance2 L R rows cols m k y) (distance2 L R rows cols m k x) = total rows (fun t => mul (row_times cols A d t) (row_times cols A d t))).
      { unfold distance2. cbv zeta. fold A.
        rewrite (total_ext zero one add mul sub opp inv fdiv fabs less iszero X rows (fun t => mul (sub (row_times cols A y t) (entry L m t k)) (sub (row_times cols A y t) (entry L m t k)))
          (fun t => add (mul (sub (row_times cols A x t) (entry L m t k)) (sub (row_times cols A x t) (entry L m t k)))
                        (add (mul (add one one) (mul (row_times cols A d t) (e t))) (mul (row_times cols A d t) (row_times cols A d t))))).
        - rewrite !(total_add zero one add mul sub opp inv fdiv fabs less iszero X), (total_mul_l zero one add mul sub opp inv fdiv fabs less iszero X), ORT. ring.
        - intros t _. rewrite LIN. unfold e, b. ring. }
      rewrite EQ. apply squares_nonneg.
    Qed.
    (* the error is given exactly if the columns of R are dependent *)
    Theorem C115_singular : forall L R rows cols m, is_matrix R rows cols -> (2 <= rows)%nat -> (1 <= cols < rows)%nat ->
      is_matrix L rows m \/ (m = 1%nat /\ wf L /\ dims L = [Z.of_nat rows]) ->
      (domino2 L R = Err <-> dependent rows cols (entry R cols)) /\ (domino2 L R = Err \/ exists Y, domino2 L R = Ok Y).
    Proof.
      intros L R rows cols m HR Hn Hc HL. destruct (tall_solve L R rows cols m HR Hn Hc HL) as (A & B & E & EA & EB). rewrite E.
      set (M := entry R cols) in *.
      assert (AV : forall v i, row_times cols A v i = total rows (fun t => mul (M t i) (row_times cols M v t))).
      { intros v i. unfold S_Domino.row_times.
        rewrite (total_ext zero one add mul sub opp inv fdiv fabs less iszero X rows _ (fun t => total cols (fun j => mul (mul (M t i) (M t j)) (v j)))).
        - rewrite (total_swap zero one add mul sub opp inv fdiv fabs less iszero X). apply (total_ext zero one add mul sub opp inv fdiv fabs less iszero X).
          intros j Hj. rewrite EA. rewrite (total_mul_r zero one add mul sub opp inv fdiv fabs less iszero X). f_equal.
          apply (total_ext zero one add mul sub opp inv fdiv fabs less iszero X). intros t _. rewrite real. reflexivity.
        - intros t Ht. rewrite <- (total_mul_l zero one add mul sub opp inv fdiv fabs less iszero X). apply (total_ext zero one add mul sub opp inv fdiv fabs less iszero X). intros j _. ring. }
      destruct (solve_spec zero one add mul sub opp inv fdiv fabs less iszero X cols m A B) as [(Y' & E1 & _ & _ & _ & E5)|(E1 & D)]; rewrite E1.
      - split; [|right; exists Y'; reflexivity]. split; [discriminate|]. intros (v & (i & Hi & Nz) & Hv). exfalso. apply Nz. apply E5; [|exact Hi].
        intros r Hr. rewrite AV. apply (total_zero zero one add mul sub opp inv fdiv fabs less iszero X). intros t Ht. rewrite Hv by exact Ht. ring.
      - split; [|left; reflexivity]. split; [intros _|reflexivity]. destruct D as (v & Nz & Hv). exists v. split; [exact Nz|].
        (* the square of the length of M v is 0 *)
        set (w := fun t => row_times cols M v t).
        assert (SQ : total rows (fun t => mul (w t) (w t)) = zero).
        { rewrite (total_ext zero one add mul sub opp inv fdiv fabs less iszero X rows _ (fun t => total cols (fun j => mul (v j) (mul (M t j) (w t))))).
          - rewrite (total_swap zero one add mul sub opp inv fdiv fabs less iszero X). apply (total_zero zero one add mul sub opp inv fdiv fabs less iszero X).
            intros j Hj. rewrite (total_mul_l zero one add mul sub opp inv fdiv fabs less iszero X). unfold w. rewrite <- AV, Hv by exact Hj. ring.
          - intros t Ht. unfold w at 1, S_Domino.row_times. rewrite <- (total_mul_r zero one add mul sub opp inv fdiv fabs less iszero X).
            apply (total_ext zero one add mul sub opp inv fdiv fabs less iszero X). intros j _. ring. }
        assert (NN : forall n, nonneg (total n (fun t => mul (w t) (w t)))).
        { induction n as [|n IH]; cbn [S_Domino.total]; [replace zero with (mul zero zero) by ring; apply (no_square _ _ _ _ _ O)|]. apply (no_add _ _ _ _ _ O); [exact IH|apply (no_square _ _ _ _ _ O)]. }
        assert (AL : forall n, total n (fun t => mul (w t) (w t)) = zero -> forall t, (t < n)%nat -> w t = zero).
        { induction n as [|n IH]; intros T t Ht; [lia|]. cbn [S_Domino.total] in T.
          assert (T1 : total n (fun t => mul (w t) (w t)) = zero).
          { apply (no_anti _ _ _ _ _ O); [apply NN|]. replace (opp (total n (fun t => mul (w t) (w t)))) with (mul (w n) (w n)); [apply (no_square _ _ _ _ _ O)|].
            transitivity (sub (add (total n (fun t => mul (w t) (w t))) (mul (w n) (w n))) (total n (fun t => mul (w t) (w t)))); [ring|]. rewrite T. ring. }
          destruct (Nat.eq_dec t n) as [->|Nt]; [|apply IH; [exact T1|lia]].
          rewrite T1 in T. destruct (iszero (w n)) eqn:Q; [apply (ef_iszero _ _ _ _ _ _ _ _ _ _ _ X); exact Q|]. exfalso.
          assert (Nw : w n <> zero) by (intros W; apply (ef_iszero _ _ _ _ _ _ _ _ _ _ _ X) in W; congruence).
          apply Nw. transitivity (mul (inv (w n)) (add zero (mul (w n) (w n)))); [field; exact Nw|]. rewrite T. ring. }
        intros i Hi. apply (AL rows SQ i Hi).
    Qed.
  End Real.
End C114.
Print Assumptions C114_solves.
Print Assumptions C114_unique.
Print Assumptions C114_singular.
Print Assumptions C114_inverse.
Print Assumptions C115_normal.
Print Assumptions C115_least_squares.
Print Assumptions C115_singular.

(* the rational numbers *)
Definition qless (x y : Qc) : bool := match (x ?= y)%Qc with Lt => true | _ => false end.
Definition qzero (x : Qc) : bool := if Qc_eq_dec x 0 then true else false.
Definition qdiv (x y : Qc) : outcome Qc := if Qc_eq_dec y 0 then Err else Ok (x * / y)%Qc.
Lemma qless_lt : forall x y, qless x y = true <-> (x < y)%Qc.
Proof.
  intros x y. unfold qless. rewrite Qclt_alt. destruct (x ?= y)%Qc; split; congruence.
Qed.
Theorem C114_rationals : exact_field 0%Qc 1%Qc Qcplus Qcmult Qcminus Qcopp Qcinv qdiv Qcabs qless qzero.
Proof.
  constructor.
  - exact Qcft.
  - intros x y H. unfold qdiv. destruct (Qc_eq_dec y 0); [contradiction|reflexivity].
  - intros x. rewrite qless_lt. split.
    + intros H ->. vm_compute in H. discriminate.
    + intros H. apply Qcnot_le_lt. intros L. apply H. pose proof (Qcabs_nonneg x) as G.
      assert (Z0 : Qcabs x = 0%Qc) by (apply Qcle_antisym; assumption). 
      revert Z0. apply Qcabs_case; intros; [assumption|]. rewrite <- (Qcopp_involutive x), Z0. reflexivity.
  - intros x y z. rewrite !qless_lt. apply Qclt_trans.
  - intros x. unfold qzero. destruct (Qc_eq_dec x 0); split; congruence.
  - reflexivity.
Qed.
Theorem C115_rationals : nonneg_order 0%Qc Qcplus Qcmult Qcopp (fun x => 0 <= x)%Qc.
Proof.
  constructor.
  - intros x. destruct (Qclt_le_dec x 0) as [H|H].
    + replace (x * x)%Qc with ((- x) * (- x))%Qc by ring. replace 0%Qc with (0 * (- x))%Qc by ring. apply Qcmult_le_compat_r; apply Qclt_le_weak; 
      apply Qclt_minus_iff in H; rewrite Qcplus_0_l in H; exact H.
    + replace 0%Qc with (0 * x)%Qc by ring. apply Qcmult_le_compat_r; exact H.
  - intros x y H1 H2. replace 0%Qc with (0 + 0)%Qc by ring. apply Qcplus_le_compat; assumption.
  - intros x H1 H2. apply Qcle_antisym; [|exact H1]. apply Qcopp_le_compat in H2. rewrite Qcopp_involutive in H2. exact H2.
Qed.
Definition qc (z : Z) : Qc := Q2Qc (inject_Z z).
Definition qdomino2 := domino2 0%Qc Qcplus Qcmult Qcminus qdiv Qcabs (fun x => x) qless qzero.
(* 5 10⌹2 2⍴0 1 2 3 *)
Example C114_example : exists Y, qdomino2 (mkArr [2] [qc 5; qc 10]) (mkArr [2; 2] [qc 0; qc 1; qc 2; qc 3]) = Ok Y
  /\ map this (elems Y) = map this [Q2Qc (-5 # 2); qc 5] /\ dims Y = [2; 1].
Proof. eexists. split; [vm_compute; reflexivity|]. split; reflexivity. Qed.
Example C114_example_singular : qdomino2 (mkArr [2] [qc 5; qc 10]) (mkArr [2; 2] [qc 1; qc 2; qc 2; qc 4]) = Err.
Proof. vm_compute. reflexivity. Qed.
(* the mean of three numbers *)
Example C115_example : exists Y, qdomino2 (mkArr [3] [qc 1; qc 2; qc 6]) (mkArr [3; 1] [qc 1; qc 1; qc 1]) = Ok Y /\ map this (elems Y) = [this (qc 3)] .
Proof. eexists. split; [vm_compute; reflexivity|]. reflexivity. Qed.
