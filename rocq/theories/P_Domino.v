(* P_Domino.v -- the LU decomposition and its solution. *)
From Verif Require Import Base M_Array S_Array P_Array M_Domino S_Domino.
From Coq Require Import Lia PeanoNat Field.

Section Field.
  Context {F : Type} (zero one : F) (add mul sub : F -> F -> F) (opp inv : F -> F)
    (fdiv : F -> F -> outcome F) (fabs : F -> F) (less : F -> F -> bool) (iszero : F -> bool)
    (X : exact_field zero one add mul sub opp inv fdiv fabs less iszero).
  Set Default Proof Using "X".
  Let Fth := ef_field _ _ _ _ _ _ _ _ _ _ _ X.
  Add Field Ffield : Fth.
  Declare Scope f_scope. Delimit Scope f_scope with F.
  Local Notation "0" := zero : f_scope. Local Notation "1" := one : f_scope.
  Local Infix "+" := add : f_scope. Local Infix "*" := mul : f_scope. Local Infix "-" := sub : f_scope.
  Bind Scope f_scope with F.
  Local Notation total := (total zero add).
  Local Notation row_times := (row_times zero add mul).
  Local Open Scope nat_scope. Local Open Scope f_scope.

  (* ---------- sums ---------- *)
  Lemma total_ext : forall n f g, (forall i, i < n -> f i = g i) -> total n f = total n g.
  Proof. induction n as [|n IH]; intros f g H; [reflexivity|]. cbn [S_Domino.total]. rewrite (IH f g) by (intros; apply H; lia). rewrite H by lia. reflexivity. Qed.
  Lemma total_zero : forall n f, (forall i, i < n -> f i = 0) -> total n f = 0.
  Proof. induction n as [|n IH]; intros f H; [reflexivity|]. cbn [S_Domino.total]. rewrite IH by (intros; apply H; lia). rewrite H by lia. ring. Qed.
  Lemma total_add : forall n f g, total n (fun i => f i + g i) = total n f + total n g.
  Proof. induction n as [|n IH]; intros f g; cbn [S_Domino.total]; [ring|]. rewrite IH. ring. Qed.
  Lemma total_mul_l : forall n c f, total n (fun i => c * f i) = c * total n f.
  Proof. induction n as [|n IH]; intros c f; cbn [S_Domino.total]; [ring|]. rewrite IH. ring. Qed.
  Lemma total_mul_r : forall n c f, total n (fun i => f i * c) = total n f * c.
  Proof. induction n as [|n IH]; intros c f; cbn [S_Domino.total]; [ring|]. rewrite IH. ring. Qed.
  Lemma total_swap : forall n m f, total n (fun i => total m (fun j => f i j)) = total m (fun j => total n (fun i => f i j)).
  Proof.
    induction n as [|n IH]; intros m f; cbn [S_Domino.total].
    - symmetry. apply total_zero. reflexivity.
    - rewrite IH. rewrite <- total_add. reflexivity.
  Qed.
  (* one term *)
  Lemma total_one : forall n i f, i < n -> (forall k, k < n -> k <> i -> f k = 0) -> total n f = f i.
  Proof.
    induction n as [|n IH]; intros i f L H; [lia|]. cbn [S_Domino.total]. destruct (Nat.eq_dec i n) as [->|N].
    - rewrite total_zero by (intros k Hk; apply H; lia). ring.
    - rewrite (IH i) by (try lia; intros k Hk Hn; apply H; lia). rewrite (H n) by lia. ring.
  Qed.
  Lemma total_split : forall n m f, m <= n -> total n f = total m f + total (n - m) (fun i => f (m + i)%nat).
  Proof.
    induction n as [|n IH]; intros m f L.
    - assert (m = O) as -> by lia. cbn [S_Domino.total Nat.sub]. ring.
    - destruct (Nat.eq_dec m (S n)) as [->|N].
      + rewrite Nat.sub_diag. cbn [S_Domino.total]. ring.
      + cbn [S_Domino.total]. rewrite (IH m) by lia. replace (S n - m)%nat with (S (n - m)) by lia. cbn [S_Domino.total].
        replace (m + (n - m))%nat with n by lia. ring.
  Qed.

  (* ---------- loops ---------- *)
  Lemma from_to_cons : forall i n, i < n -> from_to i n = i :: from_to (S i) n.
  Proof. intros i n H. unfold from_to. replace (n - i)%nat with (S (n - S i)) by lia. reflexivity. Qed.
  Lemma from_to_end : forall i n, n <= i -> from_to i n = [].
  Proof. intros i n H. unfold from_to. replace (n - i)%nat with O by lia. reflexivity. Qed.
  Lemma from_to_snoc : forall i n, i <= n -> from_to i (S n) = from_to i n ++ [n].
  Proof. intros i n H. unfold from_to. replace (S n - i)%nat with (S (n - i)) by lia. rewrite seq_S. replace (i + (n - i))%nat with n by lia. reflexivity. Qed.
  Lemma from_to_In : forall i n k, In k (from_to i n) <-> i <= k < n.
  Proof. intros i n k. unfold from_to. rewrite in_seq. lia. Qed.

  (* ---------- the pivot ---------- *)
  Local Notation pivot := (pivot zero fabs less).
  Lemma pivot_spec : forall n i A mx im, pivot n i A = (mx, im) -> i < n ->
    (mx = 0 /\ im = i /\ forall k, i <= k < n -> A k i = 0) \/ (mx <> 0 /\ i <= im < n /\ A im i <> 0).
  Proof.
    intros n i A mx im H L. unfold M_Domino.pivot in H.
    assert (G : forall l m0 k0, (forall k, In k l -> i <= k < n) ->
      (m0 = 0 /\ k0 = i) \/ (m0 = fabs (A k0 i) /\ less 0 m0 = true /\ i <= k0 < n) ->
      let r := fold_left (fun mx k => let absA := fabs (A k i) in if less (fst mx) absA then (absA, k) else mx) l (m0, k0) in
      (fst r = 0 /\ snd r = i /\ m0 = 0 /\ forall k, In k l -> A k i = 0) \/ (less 0 (fst r) = true /\ i <= snd r < n /\ A (snd r) i <> 0)).
    { induction l as [|k l IH]; intros m0 k0 HL H0; cbn [fold_left].
      - destruct H0 as [(-> & ->)|(-> & Hl & Hk)]; [left; cbn; split; [reflexivity|]; split; [reflexivity|]; split; [reflexivity|]; intros k []|].
        right. cbn. split; [exact Hl|]. split; [exact Hk|]. apply (ef_abs _ _ _ _ _ _ _ _ _ _ _ X). exact Hl.
      - cbn [fst]. destruct (less m0 (fabs (A k i))) eqn:Q.
        + assert (Z0 : less 0 (fabs (A k i)) = true).
          { destruct H0 as [(-> & _)|(_ & Hl & _)]; [exact Q|]. exact (ef_trans _ _ _ _ _ _ _ _ _ _ _ X _ _ _ Hl Q). }
          destruct (IH (fabs (A k i)) k) as [(E1 & E2 & E3 & _)|E].
          * intros k' Hk'. apply HL. right. exact Hk'.
          * right. split; [reflexivity|]. split; [exact Z0|]. apply HL. left. reflexivity.
          * exfalso. rewrite E3 in Z0. rewrite (ef_irrefl _ _ _ _ _ _ _ _ _ _ _ X) in Z0. discriminate.
          * right. exact E.
        + destruct (IH m0 k0) as [(E1 & E2 & E3 & E4)|E]; [intros k' Hk'; apply HL; right; exact Hk'|exact H0| |right; exact E].
          left. split; [exact E1|]. split; [exact E2|]. split; [exact E3|]. intros k' [<-|Hk']; [|apply E4; exact Hk'].
          subst m0. destruct (ef_abs _ _ _ _ _ _ _ _ _ _ _ X (A k i)) as (_ & B).
          (* decidable: less zero = false *)
          destruct (iszero (A k i)) eqn:Q2; [apply (ef_iszero _ _ _ _ _ _ _ _ _ _ _ X); exact Q2|]. exfalso.
          rewrite B in Q; [discriminate|]. intros Q3. apply (ef_iszero _ _ _ _ _ _ _ _ _ _ _ X) in Q3. congruence. }
    specialize (G (from_to i n) zero i). cbv zeta in G, H. rewrite H in G. cbn in G. destruct G as [(E1 & E2 & _ & E4)|(E1 & E2 & E3)].
    - intros k Hk. apply from_to_In. exact Hk.
    - left. split; reflexivity.
    - left. split; [exact E1|]. split; [exact E2|]. intros k Hk. apply E4, from_to_In. exact Hk.
    - right. split; [|split; assumption]. intros ->. rewrite (ef_irrefl _ _ _ _ _ _ _ _ _ _ _ X) in E1. discriminate.
  Qed.

  (* ---------- the elimination ---------- *)
  Local Notation elim_row := (elim_row mul sub fdiv).
  Lemma updm_same : forall (A : mat F) i j x, updm A i j x i j = x.
  Proof. intros. unfold updm. rewrite !Nat.eqb_refl. reflexivity. Qed.
  Lemma updm_other : forall (A : mat F) i j x r c, r <> i \/ c <> j -> updm A i j x r c = A r c.
  Proof. intros A i j x r c H. unfold updm. destruct (r =? i) eqn:Q1; [|reflexivity]. destruct (c =? j) eqn:Q2; [|reflexivity]. apply Nat.eqb_eq in Q1, Q2. lia. Qed.
  Lemma elim_row_spec : forall n i j A, i < j -> A i i <> 0 -> exists A', elim_row n i j A = Ok A' /\
    A' j i = A j i * inv (A i i) /\ (forall c, i < c < n -> A' j c = A j c - A j i * inv (A i i) * A i c) /\
    (forall r c, r <> j \/ c < i \/ n <= c -> (r <> j \/ c <> i) -> A' r c = A r c).
  Proof.
    intros n i j A L N. unfold M_Domino.elim_row. rewrite (ef_div _ _ _ _ _ _ _ _ _ _ _ X) by exact N. cbn [obind]. eexists. split; [reflexivity|].
    set (v := A j i * inv (A i i)). set (A1 := updm A j i v).
    assert (G : forall m, let B := fold_left (fun A k => updm A j k (A j k - A j i * A i k)) (seq (i + 1) m) A1 in
      (forall c, i < c <= i + m -> B j c = A j c - v * A i c) /\ (forall r c, r <> j \/ c <= i \/ i + m < c -> B r c = A1 r c)).
    { induction m as [|m IH]; [split; [intros; lia|reflexivity]|]. rewrite seq_S, fold_left_app. cbn [fold_left]. destruct IH as (I1 & I2).
      set (B := fold_left (fun A k => updm A j k (A j k - A j i * A i k)) (seq (i + 1) m) A1) in *. cbv zeta. split.
      - intros c Hc. destruct (Nat.eq_dec c (i + 1 + m)%nat) as [->|Nc].
        + rewrite updm_same. rewrite (I2 j (i + 1 + m)%nat) by lia. rewrite (I2 j i) by lia. rewrite (I2 i (i + 1 + m)%nat) by lia.
          unfold A1. rewrite updm_same. rewrite !updm_other by lia. reflexivity.
        + rewrite updm_other by lia. apply I1. lia.
      - intros r c Hrc. rewrite updm_other by lia. apply I2. lia. }
    unfold from_to. destruct (G (n - (i + 1))%nat) as (G1 & G2). split; [|split].
    - rewrite G2 by lia. unfold A1. apply updm_same.
    - intros c Hc. rewrite G1 by lia. reflexivity.
    - intros r c H1 H2. destruct (Nat.le_gt_cases n (i + 1)%nat) as [Q|Q].
      + replace (n - (i + 1))%nat with O by lia. cbn [seq fold_left]. unfold A1. apply updm_other. exact H2.
      + rewrite G2 by lia. unfold A1. apply updm_other. exact H2.
  Qed.
  Lemma elim_spec : forall n i A, i < n -> A i i <> 0 -> exists A', loopM (elim_row n i) (from_to (i + 1) n) A = Ok A' /\
    (forall r, i < r < n -> A' r i = A r i * inv (A i i)) /\ (forall r c, i < r < n -> i < c < n -> A' r c = A r c - A r i * inv (A i i) * A i c) /\
    (forall r c, r < n -> c < n -> r <= i \/ c < i -> A' r c = A r c).
  Proof.
    intros n i A L N.
    assert (G : forall m j B, (j + m = n)%nat -> i < j -> (forall r c, r <= i -> B r c = A r c) ->
      exists A', loopM (elim_row n i) (seq j m) B = Ok A' /\
      (forall r, j <= r < n -> A' r i = B r i * inv (A i i)) /\ (forall r c, j <= r < n -> i < c < n -> A' r c = B r c - B r i * inv (A i i) * A i c) /\
      (forall r c, r < n -> c < n -> r < j \/ c < i -> A' r c = B r c)).
    { induction m as [|m IH]; intros j B E J HB.
      - exists B. split; [reflexivity|]. split; [intros; lia|]. split; [intros; lia|]. reflexivity.
      - cbn [seq loopM]. destruct (elim_row_spec n i j B J) as (B1 & E1 & E2 & E3 & E4); [rewrite HB by lia; exact N|]. rewrite E1. cbn [obind].
        assert (Bi : forall c, B i c = A i c) by (intros c; apply HB; lia).
        destruct (IH (S j) B1) as (A' & F1 & F2 & F3 & F4); [lia|lia|intros r c Hr; rewrite E4 by lia; apply HB; exact Hr|].
        exists A'. split; [exact F1|]. split; [|split].
        + intros r Hr. destruct (Nat.eq_dec r j) as [->|Nr].
          * rewrite F4 by lia. rewrite E2, Bi. reflexivity.
          * rewrite F2 by lia. rewrite E4 by lia. reflexivity.
        + intros r c Hr Hc. destruct (Nat.eq_dec r j) as [->|Nr].
          * rewrite F4 by lia. rewrite E3 by lia. rewrite !Bi. reflexivity.
          * rewrite F3 by lia. rewrite !E4 by lia. reflexivity.
        + intros r c Hr Hc H. rewrite F4 by lia. apply E4; lia. }
    destruct (G (n - (i + 1))%nat (i + 1)%nat A) as (A' & E1 & E2 & E3 & E4); [lia|lia|reflexivity|].
    exists A'. split; [exact E1|]. split; [intros r Hr; apply E2; lia|]. split; [intros r c Hr Hc; apply E3; lia|]. intros r c Hr Hc H. apply E4; lia.
  Qed.

  (* ---------- the decomposition ---------- *)
  Definition low (M : mat F) (r t : nat) : F := if t <? r then M r t else if t =? r then 1 else 0.
  Definition upp (M : mat F) (t c : nat) : F := if t <=? c then M t c else 0.
  Definition rest (i : nat) (M : mat F) (r c : nat) : F := if (i <=? r) && (i <=? c) then M r c else 0.
  (* the permutation of the rows *)
  Definition permutes (n : nat) (P : nat -> nat) : Prop :=
    (forall r, r < n -> P r < n) /\ (forall i, i < n -> exists r, r < n /\ P r = i).
  Definition decomposed (n i : nat) (A0 : mat F) (M : mat F) (P : nat -> nat) : Prop :=
    permutes n P /\ (forall t, t < i -> M t t <> 0) /\
    forall r c, r < n -> c < n -> A0 (P r) c = total i (fun t => low M r t * upp M t c) + rest i M r c.
  Lemma swap_val : forall {Y} (v : nat -> Y) i j r, swap v i j r = v (if r =? j then i else if r =? i then j else r).
  Proof. intros Y v i j r. unfold swap, updv. destruct (r =? j); [reflexivity|]. destruct (r =? i); reflexivity. Qed.
  Lemma lu_step_spec : forall n i A0 M P, i < n -> decomposed n i A0 M P ->
    (exists M' P', lu_step zero mul sub fdiv fabs less iszero n i (M, P) = Ok (M', P') /\ decomposed n (S i) A0 M' P') \/
    (lu_step zero mul sub fdiv fabs less iszero n i (M, P) = Err /\ forall r, i <= r < n -> M r i = 0).
  Proof.
    intros n i A0 M P L ((Pb & Ps) & D & Eq). unfold lu_step. destruct (pivot n i M) as [mx im] eqn:Q.
    destruct (pivot_spec n i M mx im Q L) as [(-> & -> & Z0)|(Nm & Bi & Np)].
    - right. rewrite (proj2 (ef_iszero _ _ _ _ _ _ _ _ _ _ _ X 0) eq_refl). split; [reflexivity|exact Z0].
    - left. destruct (iszero mx) eqn:Q2; [apply (ef_iszero _ _ _ _ _ _ _ _ _ _ _ X) in Q2; congruence|].
      set (sg := fun r => if r =? im then i else if r =? i then im else r).
      set (M1 := if im =? i then M else swap M i im). set (P1 := if im =? i then P else swap P i im).
      assert (Sg : forall r, (r < i -> sg r = r) /\ (i <= r < n -> i <= sg r < n) /\ sg i = im).
      { intros r. unfold sg. split; [|split].
        - intros H. replace (r =? im) with false by (symmetry; apply Nat.eqb_neq; lia). replace (r =? i) with false by (symmetry; apply Nat.eqb_neq; lia). reflexivity.
        - intros H. destruct (r =? im) eqn:Q3; [lia|]. destruct (r =? i) eqn:Q4; lia.
        - destruct (i =? im) eqn:Q3; [apply Nat.eqb_eq in Q3; congruence|]. rewrite Nat.eqb_refl. reflexivity. }
      assert (Inv : forall r, sg (sg r) = r).
      { intros r. unfold sg. destruct (r =? im) eqn:Q3.
        - apply Nat.eqb_eq in Q3. subst r. destruct (i =? im) eqn:Q4; [apply Nat.eqb_eq in Q4; congruence|]. rewrite Nat.eqb_refl. reflexivity.
        - destruct (r =? i) eqn:Q4; [apply Nat.eqb_eq in Q4; subst r; rewrite Nat.eqb_refl; reflexivity|]. rewrite Q3, Q4. reflexivity. }
      assert (M1v : forall r, M1 r = M (sg r)).
      { intros r. unfold M1. destruct (im =? i) eqn:Q3; [|apply swap_val]. apply Nat.eqb_eq in Q3. subst im. unfold sg.
        destruct (r =? i) eqn:Q4; [apply Nat.eqb_eq in Q4; subst r; reflexivity|reflexivity]. }
      assert (P1v : forall r, P1 r = P (sg r)).
      { intros r. unfold P1. destruct (im =? i) eqn:Q3; [|apply swap_val]. apply Nat.eqb_eq in Q3. subst im. unfold sg.
        destruct (r =? i) eqn:Q4; [apply Nat.eqb_eq in Q4; subst r; reflexivity|reflexivity]. }
      assert (Sn : forall r, r < n -> sg r < n). { intros r Hr. destruct (Sg r) as (S1 & S2 & _). destruct (Nat.lt_ge_cases r i) as [H|H]; [rewrite S1; lia|apply S2; lia]. }
      assert (Pv : M1 i i <> 0) by (rewrite M1v; destruct (Sg i) as (_ & _ & ->); exact Np).
      destruct (elim_spec n i M1 L Pv) as (M2 & E1 & E2 & E3 & E4). rewrite E1. cbn [obind]. exists M2, P1. split; [reflexivity|].
      split; [split|split].
      + intros r Hr. rewrite P1v. apply Pb, Sn, Hr.
      + intros k Hk. destruct (Ps k Hk) as (r & Hr & <-). exists (sg r). split; [apply Sn, Hr|]. rewrite P1v, Inv. reflexivity.
      + intros t Ht. rewrite E4 by lia. destruct (Nat.eq_dec t i) as [->|Nt]; [exact Pv|]. rewrite M1v. destruct (Sg t) as (S1 & _). rewrite S1 by lia. apply D. lia.
      + intros r c Hr Hc. rewrite P1v, Eq by (try exact Hc; apply Sn, Hr). cbn [S_Domino.total].
        (* terms t < i *)
        assert (T : total i (fun t => low M (sg r) t * upp M t c) = total i (fun t => low M2 r t * upp M2 t c)).
        { apply total_ext. intros t Ht.
          assert (U : upp M2 t c = upp M t c). { unfold upp. destruct (t <=? c) eqn:Q3; [|reflexivity]. rewrite E4 by lia. rewrite M1v. destruct (Sg t) as (S1 & _). rewrite S1 by lia. reflexivity. }
          assert (W : low M2 r t = low M (sg r) t).
          { unfold low. destruct (Sg r) as (S1 & S2 & _). destruct (Nat.lt_ge_cases r i) as [H|H].
            - rewrite S1 by exact H. destruct (t <? r) eqn:Q3; [|reflexivity]. rewrite E4 by lia. rewrite M1v, S1 by exact H. reflexivity.
            - specialize (S2 ltac:(lia)). replace (t <? r) with true by (symmetry; apply Nat.ltb_lt; lia). replace (t <? sg r) with true by (symmetry; apply Nat.ltb_lt; lia).
              rewrite E4 by lia. rewrite M1v. reflexivity. }
          rewrite U, W. reflexivity. }
        rewrite T. assert (G : forall a b d, b = d -> a + b = a + d) by (intros; subst; reflexivity).
        replace (total i (fun t => low M2 r t * upp M2 t c) + low M2 r i * upp M2 i c + rest (S i) M2 r c)
          with (total i (fun t => low M2 r t * upp M2 t c) + (low M2 r i * upp M2 i c + rest (S i) M2 r c)) by ring. apply G.
        (* the term i and the rest *)
        destruct (Sg r) as (S1 & S2 & Si). unfold rest, low, upp.
        destruct (Nat.lt_ge_cases r i) as [H|H].
        * rewrite S1 by exact H. replace (i <=? r) with false by (symmetry; apply Nat.leb_gt; lia). replace (S i <=? r) with false by (symmetry; apply Nat.leb_gt; lia).
          replace (i <? r) with false by (symmetry; apply Nat.ltb_ge; lia). replace (i =? r) with false by (symmetry; apply Nat.eqb_neq; lia). cbn [andb]. ring.
        * specialize (S2 ltac:(lia)). replace (i <=? sg r) with true by (symmetry; apply Nat.leb_le; lia). cbn [andb].
          destruct (Nat.eq_dec r i) as [->|Nr].
          -- replace (i <? i) with false by (symmetry; apply Nat.ltb_ge; lia). rewrite Nat.eqb_refl. replace (S i <=? i) with false by (symmetry; apply Nat.leb_gt; lia).
             cbn [andb]. destruct (i <=? c) eqn:Q3; [|ring]. rewrite E4 by lia. rewrite M1v. ring.
          -- replace (i <? r) with true by (symmetry; apply Nat.ltb_lt; lia). replace (S i <=? r) with true by (symmetry; apply Nat.leb_le; lia). cbn [andb].
             destruct (i <=? c) eqn:Q3.
             ++ apply Nat.leb_le in Q3. destruct (Nat.eq_dec c i) as [->|Nc].
                ** replace (S i <=? i) with false by (symmetry; apply Nat.leb_gt; lia). rewrite E2 by lia. rewrite (E4 i i) by lia. rewrite !M1v in *. field. exact Pv.
                ** replace (S i <=? c) with true by (symmetry; apply Nat.leb_le; lia). rewrite E2 by lia. rewrite (E4 i c) by lia. rewrite E3 by lia. rewrite !M1v in *. ring.
             ++ apply Nat.leb_gt in Q3. replace (S i <=? c) with false by (symmetry; apply Nat.leb_gt; lia). ring.
  Qed.
  Lemma lu_spec : forall n A,
    (exists M P, lu zero mul sub fdiv fabs less iszero n A = Ok (M, P) /\ decomposed n n A M P) \/
    (lu zero mul sub fdiv fabs less iszero n A = Err /\ exists i M P, i < n /\ decomposed n i A M P /\ forall r, i <= r < n -> M r i = 0).
  Proof.
    intros n A. unfold lu.
    assert (G : forall m i M P, (i + m = n)%nat -> decomposed n i A M P ->
      (exists M' P', loopM (lu_step zero mul sub fdiv fabs less iszero n) (seq i m) (M, P) = Ok (M', P') /\ decomposed n n A M' P') \/
      (loopM (lu_step zero mul sub fdiv fabs less iszero n) (seq i m) (M, P) = Err /\ exists i M P, i < n /\ decomposed n i A M P /\ forall r, i <= r < n -> M r i = 0)).
    { induction m as [|m IH]; intros i M P E D.
      - left. exists M, P. split; [reflexivity|]. replace n with i by lia. replace i with n in D by lia. replace i with n by lia. exact D.
      - cbn [seq loopM]. destruct (lu_step_spec n i A M P ltac:(lia) D) as [(M' & P' & E1 & D')|(E1 & Z0)]; rewrite E1; cbn [obind].
        + apply IH; [lia|exact D'].
        + right. split; [reflexivity|]. exists i, M, P. split; [lia|]. split; assumption. }
    unfold from_to. rewrite Nat.sub_0_r. apply G; [reflexivity|].
    split; [split; [intros r Hr; exact Hr|intros i Hi; exists i; split; [exact Hi|reflexivity]]|]. split; [intros; lia|].
    intros r c Hr Hc. cbn [S_Domino.total]. unfold rest. cbn [Nat.leb andb]. ring.
  Qed.

  (* ---------- the solution ---------- *)
  Lemma updv_same : forall (x : nat -> F) i v, updv x i v i = v.
  Proof. intros. unfold updv. rewrite Nat.eqb_refl. reflexivity. Qed.
  Lemma updv_other : forall (x : nat -> F) i v r, r <> i -> updv x i v r = x r.
  Proof. intros x i v r H. unfold updv. replace (r =? i) with false by (symmetry; apply Nat.eqb_neq; exact H). reflexivity. Qed.
  (* x[i] minus the sum of M i k times x k *)
  Lemma subtract_row : forall (M : mat F) i l (x : nat -> F), ~ In i l ->
    let x' := fold_left (fun x k => updv x i (x i - M i k * x k)) l x in
    x' i + fold_right add 0 (map (fun k => M i k * x k) l) = x i /\ forall r, r <> i -> x' r = x r.
  Proof.
    intros M i l. induction l as [|k l IH]; intros x H; cbn [fold_left map fold_right]; [split; [ring|reflexivity]|].
    destruct (IH (updv x i (x i - M i k * x k))) as (E1 & E2); [intros Q; apply H; right; exact Q|]. cbv zeta in *. split.
    - assert (MX : map (fun k0 => M i k0 * updv x i (x i - M i k * x k) k0) l = map (fun k0 => M i k0 * x k0) l).
      { apply map_ext_in. intros k0 Hk0. rewrite updv_other; [reflexivity|]. intros ->. apply H. right. exact Hk0. }
      rewrite MX in E1. rewrite updv_same in E1.
      match type of E1 with ?a + ?b = _ => set (p := a) in *; set (q := b) in * end.
      transitivity (p + q + M i k * x k); [ring|]. rewrite E1. ring.
    - intros r Hr. rewrite E2 by exact Hr. apply updv_other. exact Hr.
  Qed.
  Lemma sum_seq : forall f m i, fold_right add 0 (map f (seq i m)) = total m (fun k => f (i + k)%nat).
  Proof.
    intros f m. induction m as [|m IH]; intros i; [reflexivity|]. rewrite seq_S, map_app, fold_right_app. cbn [map fold_right S_Domino.total].
    rewrite <- IH. generalize (map f (seq i m)). induction l as [|a l IHl]; cbn [fold_right]; [ring|]. rewrite IHl. ring.
  Qed.
  Lemma forward_spec : forall n M b P x0 r, r < n -> let y := forward mul sub n M b P x0 in
    total n (fun t => low M r t * y t) = b (P r).
  Proof.
    intros n M b P x0 r Hr.
    assert (G : forall m, let y := fold_left (fun x i => fold_left (fun x k => updv x i (x i - M i k * x k)) (from_to 0 i) (updv x i (b (P i)))) (seq 0 m) x0 in
      forall r, r < m -> total r (fun k => M r k * y k) + y r = b (P r)).
    { induction m as [|m IH]; [intros y r0 H0; lia|]. cbv zeta in *. rewrite seq_S, fold_left_app. cbn [fold_left Nat.add].
      set (y := fold_left _ (seq 0 m) x0) in *. intros r0 H0.
      destruct (subtract_row M m (from_to 0 m) (updv y m (b (P m)))) as (E1 & E2); [intros Q; apply from_to_In in Q; lia|]. cbv zeta in *.
      set (y' := fold_left _ (from_to 0 m) (updv y m (b (P m)))) in *.
      assert (Old : forall k, k < m -> y' k = y k) by (intros k Hk; rewrite E2 by lia; apply updv_other; lia).
      destruct (Nat.eq_dec r0 m) as [->|N].
      - rewrite updv_same in E1. rewrite <- E1. unfold from_to. rewrite Nat.sub_0_r, sum_seq.
        replace (total m (fun k => M m (0 + k)%nat * updv y m (b (P m)) (0 + k)%nat)) with (total m (fun k => M m k * y' k)); [ring|].
        apply total_ext. intros k Hk. cbn [Nat.add]. rewrite Old by exact Hk. rewrite updv_other by lia. reflexivity.
      - rewrite (total_ext r0 (fun k => M r0 k * y' k) (fun k => M r0 k * y k)) by (intros k Hk; rewrite Old by lia; reflexivity). rewrite Old by lia. apply IH. lia. }
    unfold forward. change (from_to 0 n) with (seq 0 (n - 0)). rewrite Nat.sub_0_r. cbv zeta. specialize (G n). cbv zeta in G. set (y := fold_left _ (seq 0 n) x0) in *.
    change (total n (fun t => low M r t * y t) = b (P r)). rewrite <- (G r Hr). rewrite (total_split n (S r)) by lia. cbn [S_Domino.total].
    rewrite (total_zero (n - S r)).
    - unfold low at 2. rewrite Nat.ltb_irrefl, Nat.eqb_refl.
      rewrite (total_ext r (fun t => low M r t * y t) (fun k => M r k * y k)); [ring|]. intros t Ht. unfold low. replace (t <? r) with true by (symmetry; apply Nat.ltb_lt; exact Ht). reflexivity.
    - intros i _. unfold low. replace (S r + i <? r) with false by (symmetry; apply Nat.ltb_ge; lia). replace (S r + i =? r) with false by (symmetry; apply Nat.eqb_neq; lia). ring.
  Qed.
  Lemma backward_spec : forall n M y, (forall t, t < n -> M t t <> 0) ->
    let x := backward mul sub fdiv n M (rev (from_to 0 n)) y in forall t, t < n -> total n (fun c => upp M t c * x c) = y t.
  Proof.
    intros n M y D.
    assert (G : forall m x0, m <= n -> (forall t, t < m -> x0 t = y t) -> (forall t, m <= t < n -> total n (fun c => upp M t c * x0 c) = y t) ->
      forall t, t < n -> total n (fun c => upp M t c * backward mul sub fdiv n M (rev (seq 0 m)) x0 c) = y t).
    { induction m as [|m IH]; intros x0 Lm H1 H2 t Ht; [cbn [seq rev backward]; apply H2; lia|].
      rewrite seq_S, rev_app_distr. cbn [rev app backward Nat.add].
      destruct (subtract_row M m (from_to (m + 1) n) x0) as (E1 & E2); [intros Q; apply from_to_In in Q; lia|]. cbv zeta in *.
      set (x1 := fold_left _ (from_to (m + 1) n) x0) in *.
      rewrite (ef_div _ _ _ _ _ _ _ _ _ _ _ X) by (apply D; lia). set (v := x1 m * inv (M m m)). 
      assert (Old : forall k, k <> m -> updv x1 m v k = x0 k) by (intros k Hk; rewrite updv_other by exact Hk; apply E2; exact Hk).
      apply IH; [lia| | |exact Ht].
      - intros t0 H0. rewrite Old by lia. apply H1. lia.
      - intros t0 H0. destruct (Nat.eq_dec t0 m) as [->|N].
        + rewrite (total_split n m) by lia. rewrite total_zero.
          2:{ intros i Hi. unfold upp. replace (m <=? i) with false by (symmetry; apply Nat.leb_gt; exact Hi). ring. }
          replace (n - m)%nat with (1 + (n - (m + 1)))%nat by lia. rewrite (total_split (1 + (n - (m + 1))) 1) by lia. cbn [S_Domino.total]. rewrite Nat.add_0_r.
          unfold upp at 1. rewrite Nat.leb_refl, updv_same.
          replace (1 + (n - (m + 1)) - 1)%nat with (n - (m + 1))%nat by lia.
          rewrite (total_ext _ _ (fun k => M m (m + 1 + k)%nat * x0 (m + 1 + k)%nat)).
          2:{ intros i Hi. replace (m + (1 + i))%nat with (m + 1 + i)%nat by lia. unfold upp. replace (m <=? m + 1 + i) with true by (symmetry; apply Nat.leb_le; lia). rewrite Old by lia. reflexivity. }
          rewrite <- (sum_seq (fun k => M m k * x0 k)). rewrite <- (H1 m) by lia. rewrite <- E1. unfold v, from_to. specialize (D m ltac:(lia)). field. exact D.
        + rewrite (total_ext n (fun c => upp M t0 c * updv x1 m v c) (fun c => upp M t0 c * x0 c)); [apply H2; lia|].
          intros c Hc. destruct (Nat.eq_dec c m) as [->|Nc]; [|rewrite Old by exact Nc; reflexivity].
          unfold upp. replace (t0 <=? m) with false by (symmetry; apply Nat.leb_gt; lia). ring. }
    cbv zeta. intros t Ht. unfold from_to. rewrite Nat.sub_0_r. apply G; [lia|reflexivity|intros; lia|exact Ht].
  Qed.
  Lemma decomposed_full : forall n A M P x r, decomposed n n A M P -> r < n ->
    row_times n A x (P r) = total n (fun t => low M r t * total n (fun c => upp M t c * x c)).
  Proof.
    intros n A M P x r (_ & _ & Eq) Hr. unfold S_Domino.row_times.
    rewrite (total_ext n _ (fun k => total n (fun t => low M r t * upp M t k * x k))).
    - rewrite total_swap. apply total_ext. intros t Ht. rewrite <- total_mul_l. apply total_ext. intros c Hc. ring.
    - intros k Hk. rewrite Eq by assumption. unfold rest. replace (n <=? r) with false by (symmetry; apply Nat.leb_gt; lia). cbn [andb]. rewrite total_mul_r. ring.
  Qed.
  Lemma luSolve_spec : forall n A M P b, decomposed n n A M P -> forall i, i < n ->
    row_times n A (luSolve zero mul sub fdiv n M b P) i = b i.
  Proof.
    intros n A M P b H i Hi. pose proof H as ((Pb & Ps) & D & Eq). destruct (Ps i Hi) as (r & Hr & <-).
    rewrite (decomposed_full n A M P _ r H Hr). unfold luSolve. rewrite <- (forward_spec n M b P (fun _ => 0) r Hr). cbv zeta.
    apply total_ext. intros t Ht. f_equal. apply backward_spec; [exact D|exact Ht].
  Qed.
  (* the columns of a decomposed matrix are independent *)
  Lemma decomposed_independent : forall n A M P v, decomposed n n A M P -> (forall i, i < n -> row_times n A v i = 0) -> forall i, i < n -> v i = 0.
  Proof.
    intros n A M P v H Z0. pose proof H as ((Pb & Ps) & D & Eq).
    assert (W : forall m, forall t, t < m -> t < n -> total n (fun c => upp M t c * v c) = 0).
    { induction m as [|m IH]; intros t Ht Hn; [lia|]. destruct (Nat.eq_dec t m) as [->|N]; [|apply IH; lia].
      pose proof (decomposed_full n A M P v m H Hn) as Q. rewrite Z0 in Q by (apply Pb; exact Hn). rewrite (total_one n m) in Q.
      - unfold low in Q. rewrite Nat.ltb_irrefl, Nat.eqb_refl in Q.
        match type of Q with _ = 1 * ?a => transitivity (1 * a); [ring|symmetry; exact Q] end.
      - exact Hn.
      - intros k Hk Nk. destruct (Nat.lt_ge_cases k m) as [H0|H0]; [rewrite IH by lia; ring|].
        unfold low. replace (k <? m) with false by (symmetry; apply Nat.ltb_ge; lia). replace (k =? m) with false by (symmetry; apply Nat.eqb_neq; lia). ring. }
    assert (B : forall m i, n - m <= i < n -> v i = 0).
    { induction m as [|m IH]; intros i Hi; [lia|]. destruct (Nat.lt_ge_cases i (n - m)) as [H0|H0]; [|apply IH; lia].
      pose proof (W n i ltac:(lia) ltac:(lia)) as Q. rewrite (total_one n i) in Q.
      - unfold upp in Q. rewrite Nat.leb_refl in Q. specialize (D i ltac:(lia)).
        replace (v i) with (inv (M i i) * (M i i * v i)) by (field; exact D). rewrite Q. ring.
      - lia.
      - intros k Hk Nk. unfold upp. destruct (i <=? k) eqn:Q3; [|ring]. apply Nat.leb_le in Q3. rewrite IH by lia. ring. }
    intros i Hi. apply (B n). lia.
  Qed.
  (* the triangular system of the first i rows *)
  Lemma triangular : forall i M (y : nat -> F), (forall t, t < i -> M t t <> 0) -> exists v, forall t, t < i -> total i (fun c => upp M t c * v c) = y t.
  Proof.
    intros i M y D. exists (backward mul sub fdiv i M (rev (from_to 0 i)) y). intros t Ht. apply (backward_spec i M y D t Ht).
  Qed.
  Lemma singular_dependent : forall n i A M P, i < n -> decomposed n i A M P -> (forall r, i <= r < n -> M r i = 0) -> one <> zero ->
    dependent zero add mul n n A.
  Proof.
    intros n i A M P Hi ((Pb & Ps) & D & Eq) Z0 O.
    destruct (triangular i M (fun t => opp (M t i)) D) as (v & Hv).
    set (w := fun c => if c <? i then v c else if c =? i then 1 else 0). exists w. split.
    - exists i. split; [exact Hi|]. unfold w. rewrite Nat.ltb_irrefl, Nat.eqb_refl. exact O.
    - intros k Hk. destruct (Ps k Hk) as (r & Hr & <-). unfold S_Domino.row_times.
      rewrite (total_ext n _ (fun c => total i (fun t => low M r t * upp M t c * w c) + rest i M r c * w c)).
      2:{ intros c Hc. rewrite Eq by assumption. rewrite total_mul_r. ring. }
      rewrite total_add, total_swap. rewrite total_zero.
      + rewrite total_zero; [ring|]. intros c Hc. unfold rest, w. destruct (i <=? r) eqn:Q1; [|cbn [andb]; ring]. destruct (i <=? c) eqn:Q2; cbn [andb]; [|ring].
        apply Nat.leb_le in Q1, Q2. replace (c <? i) with false by (symmetry; apply Nat.ltb_ge; lia). destruct (c =? i) eqn:Q3; [|ring]. apply Nat.eqb_eq in Q3. subst c. rewrite Z0 by lia. ring.
      + intros t Ht. rewrite (total_ext n _ (fun c => low M r t * (upp M t c * w c))) by (intros; ring). rewrite total_mul_l.
        rewrite (total_split n (S i)) by lia. cbn [S_Domino.total].
        rewrite (total_zero (n - S i)).
        2:{ intros c Hc. unfold w. replace (S i + c <? i) with false by (symmetry; apply Nat.ltb_ge; lia). replace (S i + c =? i) with false by (symmetry; apply Nat.eqb_neq; lia). ring. }
        rewrite (total_ext i _ (fun c => upp M t c * v c)) by (intros c Hc; unfold w; replace (c <? i) with true by (symmetry; apply Nat.ltb_lt; exact Hc); reflexivity).
        rewrite Hv by exact Ht. unfold w. rewrite Nat.ltb_irrefl, Nat.eqb_refl. unfold upp. replace (t <=? i) with true by (symmetry; apply Nat.leb_le; lia). ring.
  Qed.
  Lemma one_not_zero : one <> zero.
  Proof. exact (F_1_neq_0 Fth). Qed.
End Field.
