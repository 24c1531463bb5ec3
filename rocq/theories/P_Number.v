(* P_Number.v -- lemmas about M_Number. *)
From Coq Require Import Permutation String QArith Floats.SpecFloat.
From Verif Require Import Base M_Number S_Number.
Open Scope Z_scope.

Lemma wrap_spec z : wraps_to z (wrap z).
Proof.
  unfold wraps_to, fits, wrap. pose proof (Z.mod_pos_bound (z + 2 ^ 63) (2 ^ 64)) as H. split; [lia|].
  exists (- ((z + 2 ^ 63) / 2 ^ 64)). pose proof (Z.div_mod (z + 2 ^ 63) (2 ^ 64)). lia.
Qed.
Lemma wrap_id z : fits z -> wrap z = z.
Proof. unfold fits, wrap. intros H. rewrite Z.mod_small by lia. lia. Qed.
Lemma wraps_unique z r s : wraps_to z r -> wraps_to z s -> r = s.
Proof. intros ((A1 & A2) & k & ->) ((B1 & B2) & j & ->). lia. Qed.

Lemma quot_abs_le a n : n <> 0 -> Z.abs n * Z.abs (Z.quot a n) <= Z.abs a.
Proof.
  intros E. rewrite <- Z.quot_abs by exact E. apply Z.mul_quot_le; lia.
Qed.
Lemma quot_between a n : n <> 0 -> Z.min a 0 <= Z.quot a n * n <= Z.max a 0.
Proof.
  intros E. destruct (Z.le_ge_cases 0 a) as [H|H].
  - pose proof (Z.mul_quot_le a n H E). lia.
  - pose proof (Z.mul_quot_ge a n ltac:(lia) E). lia.
Qed.
Lemma int_div2_spec a n : fits a -> fits n -> ~ (a = minint /\ n = -1) ->
  forall r, int_div2 a n = Some r <-> n <> 0 /\ r * n = a.
Proof.
  intros Ha Hn Hx r. unfold int_div2, minint in *. destruct (Z.eqb_spec n 0) as [E|E].
  - split; [discriminate|]. intros (H & _). congruence.
  - assert (Hq : fits (Z.quot a n)).
    { pose proof (quot_abs_le a n E) as Hab. unfold fits in *. nia. }
    rewrite (wrap_id _ Hq). assert (Hm : fits (Z.quot a n * n)).
    { pose proof (quot_between a n E). unfold fits in *. lia. }
    rewrite (wrap_id _ Hm). destruct (Z.eqb_spec (Z.quot a n * n) a) as [E2|E2].
    + split.
      * intros [= <-]. split; assumption.
      * intros (_ & <-). f_equal. apply Z.quot_mul. exact E.
    + split; [discriminate|]. intros (_ & <-). exfalso. apply E2. rewrite Z.quot_mul by exact E. reflexivity.
Qed.

(* ---------------- factorial, binomial ---------------- *)
Lemma factorial_pos n : 0 < factorial n.
Proof. induction n as [|n IH]; cbn [factorial]; lia. Qed.
Lemma factorial_le20 n : (n <= 20)%nat -> factorial n <= factorial 20.
Proof.
  intros H. remember 20%nat as m eqn:E. clear E. induction H as [|m H IH]; [lia|]. cbn [factorial]. pose proof (factorial_pos m). lia.
Qed.
Lemma int_gamma_ok n : (n <= 20)%nat -> int_gamma (Z.of_nat n) = Some (factorial n).
Proof. intros H. do 21 (destruct n as [|n]; [reflexivity|]). lia. Qed.
Lemma int_gamma_spec i : (0 <= i <= 20 -> int_gamma i = Some (factorial (Z.to_nat i))) /\
  (i < 0 \/ 20 < i -> int_gamma i = None).
Proof.
  split; intros H.
  - replace i with (Z.of_nat (Z.to_nat i)) at 1 by lia. apply int_gamma_ok. lia.
  - unfold int_gamma. replace ((i <? 0) || (20 <? i)) with true by lia. reflexivity.
Qed.
Lemma pascal_0 n : pascal n 0 = 1.
Proof. destruct n; reflexivity. Qed.
Lemma pascal_SS n k : pascal (S n) (S k) = pascal n k + pascal n (S k).
Proof. reflexivity. Qed.
Lemma pascal_gt n : forall k, (n < k)%nat -> pascal n k = 0.
Proof.
  induction n as [|n IH]; intros k H; destruct k as [|k]; try lia; [reflexivity|]. rewrite pascal_SS, !IH by lia. reflexivity.
Qed.
Lemma pascal_diag n : pascal n n = 1.
Proof. induction n as [|n IH]; [reflexivity|]. rewrite pascal_SS, IH, pascal_gt by lia. reflexivity. Qed.
Lemma factorial_S n : factorial (S n) = (Z.of_nat n + 1) * factorial n.
Proof. cbn [factorial]. rewrite Nat2Z.inj_succ. reflexivity. Qed.
Lemma pascal_factorial n : forall k, (k <= n)%nat -> pascal n k * (factorial k * factorial (n - k)) = factorial n.
Proof.
  induction n as [|n IH]; intros k H.
  - assert (k = 0)%nat as -> by lia. reflexivity.
  - destruct k as [|k]; [rewrite pascal_0; cbn [factorial Nat.sub]; ring|].
    rewrite pascal_SS. cbn [Nat.sub]. destruct (Nat.eq_dec k n) as [->|Hk].
    + rewrite (pascal_gt n (S n)) by lia. rewrite pascal_diag, Nat.sub_diag. cbn [factorial]. ring.
    + assert (E1 := IH k ltac:(lia)). assert (E2 := IH (S k) ltac:(lia)).
      replace (n - k)%nat with (S (n - S k)) in * by lia. rewrite !factorial_S in *.
      assert (Hz : Z.of_nat n = Z.of_nat k + Z.of_nat (n - S k) + 1) by lia. rewrite Hz.
      set (a := Z.of_nat k) in *. set (b := Z.of_nat (n - S k)) in *. rewrite <- Z.mul_add_distr_r || idtac.
      transitivity ((a + 1) * (pascal n k * (factorial k * ((b + 1) * factorial (n - S k)))) + (b + 1) * (pascal n (S k) * ((a + 1) * factorial k * factorial (n - S k)))); [ring|].
      rewrite E1, E2. ring.
Qed.
Lemma fits_le20 z : 0 <= z <= factorial 20 -> fits z.
Proof. intros H. assert (factorial 20 = 2432902008176640000) by (vm_compute; reflexivity). unfold fits. lia. Qed.
Lemma gamma2_pos_spec L R : 0 <= L -> L <= R -> fits R ->
  (R <= 20 -> gamma2_pos L R = Some (pascal (Z.to_nat R) (Z.to_nat L))) /\ (20 < R -> gamma2_pos L R = None).
Proof.
  intros HL HLR Hf. unfold gamma2_pos. destruct (int_gamma_spec L) as (GL & GL'), (int_gamma_spec R) as (GR & GR').
  split; intros H.
  - rewrite GL, GR by lia. rewrite wrap_id by (unfold fits in *; lia). destruct (int_gamma_spec (R - L)) as (GD & _). rewrite GD by lia.
    pose proof (pascal_factorial (Z.to_nat R) (Z.to_nat L) ltac:(lia)) as E.
    replace (Z.to_nat R - Z.to_nat L)%nat with (Z.to_nat (R - L)) in E by lia.
    pose proof (factorial_pos (Z.to_nat L)). pose proof (factorial_pos (Z.to_nat (R - L))). pose proof (factorial_pos (Z.to_nat R)).
    pose proof (factorial_le20 (Z.to_nat R) ltac:(lia)).
    set (x := factorial (Z.to_nat L) * factorial (Z.to_nat (R - L))) in *. assert (0 < x) by (unfold x; nia).
    set (p := pascal (Z.to_nat R) (Z.to_nat L)) in *. assert (0 < p) by nia.
    assert (Hx : x <= p * x) by nia. assert (Hpx : p <= p * x) by nia. rewrite E in Hx, Hpx.
    rewrite (wrap_id x) by (apply fits_le20; lia). rewrite <- E, Z.quot_mul by lia. rewrite wrap_id by (apply fits_le20; lia). reflexivity.
  - rewrite GR' by lia. destruct (int_gamma L); reflexivity.
Qed.
Lemma falling_S r k : falling r (S k) = r * falling (r - 1) k.
Proof. reflexivity. Qed.
Lemma falling_pos n : forall k, (k <= n)%nat -> falling (Z.of_nat n) k * factorial (n - k) = factorial n.
Proof.
  induction n as [|n IH]; intros k H.
  - assert (k = 0)%nat as -> by lia. reflexivity.
  - destruct k as [|k]; [cbn [falling Nat.sub]; ring|]. rewrite falling_S. replace (Z.of_nat (S n) - 1) with (Z.of_nat n) by lia.
    cbn [Nat.sub]. rewrite <- Z.mul_assoc, IH by lia. rewrite factorial_S. f_equal. lia.
Qed.
Lemma falling_zero n : forall k, (n < k)%nat -> falling (Z.of_nat n) k = 0.
Proof.
  induction n as [|n IH]; intros k H; destruct k as [|k]; try lia; rewrite falling_S; [reflexivity|].
  replace (Z.of_nat (S n) - 1) with (Z.of_nat n) by lia. rewrite IH by lia. ring.
Qed.
Fixpoint sgn (k : nat) : Z := match k with O => 1 | S k' => - sgn k' end.
Lemma falling_neg k : forall m, falling (- (Z.of_nat m + 1)) k * factorial m = sgn k * factorial (m + k).
Proof.
  induction k as [|k IH]; intros m.
  - cbn [falling sgn]. rewrite Nat.add_0_r. ring.
  - rewrite falling_S. cbn [sgn]. specialize (IH (S m)). rewrite factorial_S in IH. replace (m + S k)%nat with (S m + k)%nat by lia.
    replace (- (Z.of_nat m + 1) - 1) with (- (Z.of_nat (S m) + 1)) by lia.
    transitivity (- (falling (- (Z.of_nat (S m) + 1)) k * ((Z.of_nat m + 1) * factorial m))); [ring|]. rewrite IH. ring.
Qed.
Lemma m1exp_sgn n : 0 <= n -> m1exp n = sgn (Z.to_nat n).
Proof.
  intros H. unfold m1exp. replace (Z.rem n 2) with (n mod 2) by (symmetry; apply Z.rem_mod_nonneg; lia).
  replace n with (Z.of_nat (Z.to_nat n)) at 1 by lia. generalize (Z.to_nat n) as k. clear.
  assert (H : forall k, sgn (S (S k)) = sgn k) by (intros k; cbn [sgn]; ring).
  fix rec 1. intros [|[|k]]; [reflexivity|reflexivity|]. rewrite H, <- (rec k).
  replace (Z.of_nat (S (S k))) with (Z.of_nat k + 1 * 2) by lia. rewrite Z.mod_add by lia. reflexivity.
Qed.
Lemma pascal_neg m k : pascal (m + k) k * factorial k * sgn k = falling (- (Z.of_nat m + 1)) k.
Proof.
  pose proof (pascal_factorial (m + k) k ltac:(lia)) as E. replace (m + k - k)%nat with m in E by lia.
  pose proof (falling_neg k m) as F. pose proof (factorial_pos m). apply (Z.mul_cancel_r _ _ (factorial m)); [lia|].
  rewrite F, <- E. ring.
Qed.
Lemma fits_sgn k z : fits z -> fits (- z) -> fits (sgn k * z).
Proof. intros H1 H2. assert (sgn k = 1 \/ sgn k = -1) as [-> | ->] by (induction k; cbn [sgn]; lia); [replace (1 * z) with z by ring|replace (-1 * z) with (- z) by ring]; assumption. Qed.
Lemma pascal_nonneg n : forall k, 0 <= pascal n k.
Proof. induction n as [|n IH]; intros [|k]; cbn [pascal]; try lia. pose proof (IH k). pose proof (IH (S k)). lia. Qed.
Lemma pascal_le20 n k : (n <= 20)%nat -> 0 <= pascal n k <= factorial 20.
Proof.
  intros H. split; [apply pascal_nonneg|]. destruct (le_lt_dec k n) as [Hk|Hk]; [|rewrite pascal_gt by lia; pose proof (factorial_pos 20); lia].
  pose proof (pascal_factorial n k Hk). pose proof (factorial_pos k). pose proof (factorial_pos (n - k)). pose proof (factorial_le20 n H). pose proof (pascal_nonneg n k).
  assert (0 < factorial k * factorial (n - k)) by nia. assert (pascal n k <= pascal n k * (factorial k * factorial (n - k))) by nia. lia.
Qed.
Lemma fits_pascal n k s : (n <= 20)%nat -> fits (sgn s * pascal n k).
Proof.
  intros H. pose proof (pascal_le20 n k H). assert (factorial 20 = 2432902008176640000) by (vm_compute; reflexivity).
  apply fits_sgn; unfold fits; lia.
Qed.
Lemma gamma2_pospos f L R : 0 <= L -> 0 <= R -> fits L -> fits R ->
  int_gamma2 f L R = if L <=? R then gamma2_pos L R else Some 0.
Proof.
  intros H1 H2 F1 F2. unfold fits in *.
  destruct f; cbn [int_gamma2]; rewrite (wrap_id (R - L)) by (unfold fits; lia);
    destruct (Z.leb_spec L R); replace (0 <=? L) with true by lia; replace (0 <=? R) with true by lia; cbn [andb];
    [replace (0 <=? R - L) with true by lia|replace (0 <=? R - L) with false by lia; replace (R - L <? 0) with true by lia
    |replace (0 <=? R - L) with true by lia|replace (0 <=? R - L) with false by lia; replace (R - L <? 0) with true by lia]; reflexivity.
Qed.
Lemma gamma2_negR f L R : 0 <= L -> R < 0 -> fits L -> fits R ->
  int_gamma2 (S f) L R = if R - L <? minint then None else
    match gamma2_pos L (L - R - 1) with Some v => Some (wrap (m1exp L * v)) | None => None end.
Proof.
  intros H1 H2 F1 F2. unfold fits, minint in *. cbn [int_gamma2].
  replace (0 <=? L) with true by lia. replace (0 <=? R) with false by lia. replace (L <? 0) with false by lia.
  replace (R <? 0) with true by lia. cbn [andb].
  destruct (Z.ltb_spec (R - L) (- 2 ^ 63)) as [Hd|Hd].
  - assert (E : wrap (R - L) = R - L + 2 ^ 64).
    { eapply wraps_unique; [apply wrap_spec|]. split; [unfold fits; lia|]. exists 1. lia. }
    rewrite E. replace (R - L + 2 ^ 64 <? 0) with false by lia. reflexivity.
  - rewrite (wrap_id (R - L)) by (unfold fits; lia). replace (R - L <? 0) with true by lia.
    rewrite (wrap_id (1 + R)) by (unfold fits; lia). rewrite (wrap_id (L - (1 + R))) by (unfold fits; lia).
    rewrite gamma2_pospos by (unfold fits; lia). replace (L <=? L - (1 + R)) with true by lia.
    replace (L - (1 + R)) with (L - R - 1) by lia. reflexivity.
Qed.
Lemma gamma2_negneg f L R : L < 0 -> R < 0 -> fits L -> fits R ->
  int_gamma2 (S f) L R = if R <? L then Some 0 else
    match gamma2_pos (- R - 1) (- L - 1) with Some v => Some (wrap (m1exp (R - L) * v)) | None => None end.
Proof.
  intros H1 H2 F1 F2. unfold fits in *. cbn [int_gamma2].
  replace (0 <=? L) with false by lia. replace (0 <=? R) with false by lia. replace (L <? 0) with true by lia.
  replace (R <? 0) with true by lia. cbn [andb]. rewrite (wrap_id (R - L)) by (unfold fits; lia).
  destruct (Z.ltb_spec R L) as [Hd|Hd].
  - replace (0 <=? R - L) with false by lia. replace (R - L <? 0) with true by lia. reflexivity.
  - replace (0 <=? R - L) with true by lia. rewrite (wrap_id (1 + L)) by (unfold fits; lia).
    rewrite (wrap_id (R + 1)) by (unfold fits; lia). rewrite (wrap_id (- (R + 1))) by (unfold fits; lia).
    replace (if 1 + L <? 0 then wrap (- (1 + L)) else 1 + L) with (- L - 1).
    2:{ destruct (Z.ltb_spec (1 + L) 0); [rewrite wrap_id by (unfold fits; lia); lia|lia]. }
    replace (- (R + 1)) with (- R - 1) by lia. rewrite gamma2_pospos by (unfold fits; lia).
    replace (- R - 1 <=? - L - 1) with true by lia. reflexivity.
Qed.
Lemma gamma2_negL f L R : L < 0 -> 0 <= R -> fits L -> fits R ->
  int_gamma2 f L R = if R - L <? 2 ^ 63 then Some 0 else None.
Proof.
  intros H1 H2 F1 F2. unfold fits in *.
  assert (E : wrap (R - L) = if R - L <? 2 ^ 63 then R - L else R - L - 2 ^ 64).
  { destruct (Z.ltb_spec (R - L) (2 ^ 63)); [apply wrap_id; unfold fits; lia|].
    eapply wraps_unique; [apply wrap_spec|]. split; [unfold fits; lia|]. exists (-1). lia. }
  destruct f; cbn [int_gamma2]; rewrite E; replace (0 <=? L) with false by lia; replace (0 <=? R) with true by lia; replace (L <? 0) with true by lia;
    replace (R <? 0) with false by lia; cbn [andb]; (destruct (Z.ltb_spec (R - L) (2 ^ 63));
    [replace (0 <=? R - L) with true by lia|replace (0 <=? R - L - 2 ^ 64) with false by lia]; reflexivity).
Qed.
(* the recursion of Gamma2 is at most one level deep *)
Lemma gamma2_fuel f L R : fits L -> fits R -> int_gamma2 (S f) L R = int_gamma2 1 L R.
Proof.
  intros F1 F2. destruct (Z.lt_ge_cases L 0), (Z.lt_ge_cases R 0).
  - rewrite !gamma2_negneg by assumption. reflexivity.
  - rewrite !gamma2_negL by assumption. reflexivity.
  - rewrite !gamma2_negR by assumption. reflexivity.
  - rewrite !gamma2_pospos by assumption. reflexivity.
Qed.
(* L >= 0: the generalized binomial coefficient R(R-1)..(R-L+1) / L! *)
Lemma gamma2_value L R v : fits L -> fits R -> 0 <= L -> int_gamma2 2 L R = Some v ->
  v * factorial (Z.to_nat L) = falling R (Z.to_nat L).
Proof.
  intros F1 F2 HL H. destruct (Z.lt_ge_cases R 0) as [HR|HR].
  - rewrite gamma2_negR in H by assumption. destruct (Z.ltb_spec (R - L) minint); [discriminate|]. unfold fits, minint in *.
    destruct (gamma2_pos_spec L (L - R - 1) HL ltac:(lia) ltac:(unfold fits; lia)) as (G1 & G2).
    destruct (Z.le_gt_cases (L - R - 1) 20) as [H20|H20]; [rewrite G1 in H by lia|rewrite G2 in H by lia; discriminate].
    injection H as <-. rewrite m1exp_sgn by lia. rewrite wrap_id by (apply fits_pascal; lia).
    replace R with (- (Z.of_nat (Z.to_nat (- R - 1)) + 1)) at 2 by lia. rewrite <- pascal_neg.
    replace (Z.to_nat (- R - 1) + Z.to_nat L)%nat with (Z.to_nat (L - R - 1)) by lia. ring.
  - rewrite gamma2_pospos in H by assumption. replace R with (Z.of_nat (Z.to_nat R)) at 1 by lia.
    destruct (Z.leb_spec L R) as [HLR|HLR].
    + destruct (gamma2_pos_spec L R HL HLR F2) as (G1 & G2).
      destruct (Z.le_gt_cases R 20) as [H20|H20]; [rewrite G1 in H by lia|rewrite G2 in H by lia; discriminate]. injection H as <-.
      pose proof (pascal_factorial (Z.to_nat R) (Z.to_nat L) ltac:(lia)) as E. pose proof (falling_pos (Z.to_nat R) (Z.to_nat L) ltac:(lia)) as F.
      pose proof (factorial_pos (Z.to_nat R - Z.to_nat L)). apply (Z.mul_cancel_r _ _ (factorial (Z.to_nat R - Z.to_nat L))); [lia|].
      rewrite F, <- E. ring.
    + injection H as <-. rewrite falling_zero by lia. ring.
Qed.
(* L < 0: zero, or by symmetry the coefficient for R-L *)
Lemma gamma2_value_neg L R v : fits L -> fits R -> L < 0 -> int_gamma2 2 L R = Some v ->
  (0 <= R -> v = 0) /\ (R < L -> v = 0) /\ (L <= R < 0 -> v * factorial (Z.to_nat (R - L)) = falling R (Z.to_nat (R - L))).
Proof.
  intros F1 F2 HL H. destruct (Z.lt_ge_cases R 0) as [HR|HR].
  - rewrite gamma2_negneg in H by assumption. split; [lia|]. destruct (Z.ltb_spec R L) as [HLR|HLR].
    + injection H as <-. split; [reflexivity|lia].
    + split; [lia|]. intros _. unfold fits in *.
      destruct (gamma2_pos_spec (- R - 1) (- L - 1) ltac:(lia) ltac:(lia) ltac:(unfold fits; lia)) as (G1 & G2).
      destruct (Z.le_gt_cases (- L - 1) 20) as [H20|H20]; [rewrite G1 in H by lia|rewrite G2 in H by lia; discriminate].
      injection H as <-. rewrite m1exp_sgn by lia. rewrite wrap_id by (apply fits_pascal; lia).
      replace R with (- (Z.of_nat (Z.to_nat (- R - 1)) + 1)) at 4 by lia. rewrite <- pascal_neg.
      set (m := Z.to_nat (- R - 1)). set (j := Z.to_nat (R - L)). replace (Z.to_nat (- L - 1)) with (m + j)%nat by lia.
      assert (E : pascal (m + j) m = pascal (m + j) j); [|rewrite E; ring].
      pose proof (pascal_factorial (m + j) m ltac:(lia)) as E1. pose proof (pascal_factorial (m + j) j ltac:(lia)) as E2.
      replace (m + j - m)%nat with j in E1 by lia. replace (m + j - j)%nat with m in E2 by lia.
      pose proof (factorial_pos m). pose proof (factorial_pos j). assert (0 < factorial m * factorial j) by nia.
      apply (Z.mul_cancel_r _ _ (factorial m * factorial j)); [lia|]. rewrite E1, <- E2. ring.
  - rewrite gamma2_negL in H by assumption. destruct (R - L <? 2 ^ 63); [|discriminate]. injection H as <-. split; [reflexivity|]. split; [reflexivity|]. lia.
Qed.

(* ---------------- towers ---------------- *)
Lemma last_fold {P} (l : list (Z * numeric P)) i : forall acc,
  (fold_left (fun acc e => if Class (snd e) =? i then Some (snd e) else acc) l acc = acc /\ (forall e, In e l -> Class (snd e) <> i)) \/
  exists e, In e l /\ Class (snd e) = i /\ fold_left (fun acc e => if Class (snd e) =? i then Some (snd e) else acc) l acc = Some (snd e).
Proof.
  induction l as [|e l IH]; intros acc; cbn [fold_left].
  - left. split; [reflexivity|]. intros e [].
  - destruct (Z.eqb_spec (Class (snd e)) i) as [E|E].
    + destruct (IH (Some (snd e))) as [(-> & H)|(e' & H1 & H2 & H3)]; right.
      * exists e. split; [left; reflexivity|]. split; [exact E|reflexivity].
      * exists e'. split; [right; exact H1|]. split; assumption.
    + destruct (IH acc) as [(-> & H)|(e' & H1 & H2 & H3)].
      * left. split; [reflexivity|]. intros e' [<-|He']; [exact E|apply H; exact He'].
      * right. exists e'. split; [right; exact H1|]. split; assumption.
Qed.
Lemma last_of_class_spec {P} (l : list (Z * numeric P)) i :
  (last_of_class l i = None /\ forall e, In e l -> Class (snd e) <> i) \/
  exists e, In e l /\ Class (snd e) = i /\ last_of_class l i = Some (snd e).
Proof. exact (last_fold l i None). Qed.
Lemma mapM_ok_inv {A B} (f : A -> outcome B) : forall l r, mapM f l = Ok r ->
  zlen r = zlen l /\ (forall i x, znth l i = Some x -> exists y, znth r i = Some y /\ f x = Ok y).
Proof.
  induction l as [|x l IH]; intros r H; cbn [mapM] in H.
  - injection H as <-. split; [reflexivity|]. intros i x Hx. apply znth_some_range in Hx. cbn in Hx. lia.
  - destruct (f x) as [y| |] eqn:Ef; cbn [obind] in H; try discriminate.
    destruct (mapM f l) as [ys| |] eqn:Em; cbn [obind] in H; try discriminate. injection H as <-.
    destruct (IH ys eq_refl) as (IH1 & IH2). split; [rewrite !zlen_cons; lia|].
    intros i z Hz. pose proof (znth_some_range _ _ _ Hz). destruct (Z.eq_dec i 0) as [->|Hi].
    + cbn in Hz. injection Hz as <-. exists y. split; [reflexivity|exact Ef].
    + rewrite znth_cons_pos in Hz by lia. destruct (IH2 _ _ Hz) as (w & Hw & Hf). exists w. rewrite znth_cons_pos by lia. split; assumption.
Qed.
Lemma zlen_length {A} (l : list A) : zlen l = Z.of_nat (length l).
Proof. reflexivity. Qed.
Lemma set_tower_ok {P} (numbers : list (Z * numeric P)) import :
  (exists t, SetTower numbers import = Ok t) <->
  Permutation (map (fun e => Class (snd e)) numbers) (zseq (zlen numbers)).
Proof.
  split.
  - intros (t & H). unfold SetTower in H.
    destruct (mapM _ (zseq (zlen numbers))) as [ix| |] eqn:Em; cbn [obind] in H; try discriminate.
    destruct (mapM_ok_inv _ _ _ Em) as (_ & Hm). symmetry.
    apply NoDup_Permutation_bis; [apply NoDup_zseq| |].
    + pose proof (zlen_zseq (zlen numbers)) as Hz. pose proof (zlen_nonneg numbers). rewrite map_length. unfold zlen in *. lia.
    + intros i Hi. apply In_zseq in Hi. destruct (Hm i i) as (y & _ & Hy); [apply znth_zseq; exact Hi|].
      destruct (last_of_class_spec numbers i) as [(E & _)|(e & He & Hc & E)]; rewrite E in Hy; [discriminate|].
      apply in_map_iff. exists e. split; assumption.
  - intros Hp. unfold SetTower.
    assert (Hall : forall i, In i (zseq (zlen numbers)) -> exists n, last_of_class numbers i = Some n).
    { intros i Hi. destruct (last_of_class_spec numbers i) as [(E & H)|(e & He & Hc & E)]; [|eauto].
      exfalso. apply (Permutation_in _ (Permutation_sym Hp)) in Hi. apply in_map_iff in Hi. destruct Hi as (e & Hc & He). exact (H e He Hc). }
    assert (Hex : exists ix, mapM (fun i => match last_of_class numbers i with Some n => Ok n | None => Err end) (zseq (zlen numbers)) = Ok ix).
    { revert Hall. generalize (zseq (zlen numbers)) as l. induction l as [|i l IH]; intros H; [exists []; reflexivity|].
      destruct (H i (or_introl eq_refl)) as (n & Hn). destruct IH as (ix & Hix); [intros j Hj; apply H; right; exact Hj|].
      exists (n :: ix). cbn [mapM]. rewrite Hn. cbn [obind]. rewrite Hix. reflexivity. }
    destruct Hex as (ix & ->). cbn [obind]. eauto.
Qed.
Lemma set_tower_idx {P} (numbers : list (Z * numeric P)) import t :
  SetTower numbers import = Ok t ->
  Numbers t = numbers /\ Import t = import /\ zlen (idx t) = zlen numbers /\
  (forall ty nu, In (ty, nu) numbers -> znth (idx t) (Class nu) = Some nu) /\
  (forall c nu, znth (idx t) c = Some nu -> Class nu = c /\ exists ty, In (ty, nu) numbers).
Proof.
  intros H. assert (Hp : Permutation (map (fun e => Class (snd e)) numbers) (zseq (zlen numbers))) by (apply (set_tower_ok numbers import); eauto).
  unfold SetTower in H. destruct (mapM _ (zseq (zlen numbers))) as [ix| |] eqn:Em; cbn [obind] in H; try discriminate.
  injection H as <-. cbn [Numbers Import idx]. destruct (mapM_ok_inv _ _ _ Em) as (Hl & Hm).
  split; [reflexivity|]. split; [reflexivity|]. split; [rewrite Hl, zlen_zseq; pose proof (zlen_nonneg numbers); lia|].
  assert (Hinj : forall e1 e2, In e1 numbers -> In e2 numbers -> Class (snd e1) = Class (snd e2) -> e1 = e2).
  { assert (Hnd : NoDup (map (fun e => Class (snd e)) numbers)) by (apply (Permutation_NoDup (Permutation_sym Hp)); apply NoDup_zseq).
    clear - Hnd. induction numbers as [|e l IH]; intros e1 e2 H1 H2 He; [destruct H1|].
    cbn [map] in Hnd. inversion Hnd as [|? ? Hn Hnd']; subst.
    destruct H1 as [<-|H1], H2 as [<-|H2]; [reflexivity| | |auto].
    - exfalso. apply Hn. rewrite He. apply (in_map (fun e => Class (snd e))). exact H2.
    - exfalso. apply Hn. rewrite <- He. apply (in_map (fun e => Class (snd e))). exact H1. }
  split.
  - intros ty nu Hin. assert (Hc : In (Class nu) (zseq (zlen numbers))).
    { apply (Permutation_in _ Hp). change (Class nu) with (Class (snd (ty, nu))). apply (in_map (fun e => Class (snd e))). exact Hin. }
    apply In_zseq in Hc. destruct (Hm (Class nu) (Class nu)) as (y & Hy & Hf); [apply znth_zseq; exact Hc|].
    destruct (last_of_class_spec numbers (Class nu)) as [(E & H)|(e & He & Hcl & E)]; rewrite E in Hf; [discriminate|].
    injection Hf as <-. rewrite (Hinj e (ty, nu) He Hin Hcl) in Hy. exact Hy.
  - intros c nu Hc. pose proof (znth_some_range _ _ _ Hc) as Hr. rewrite Hl, zlen_zseq in Hr. pose proof (zlen_nonneg numbers) as Hnn. assert (Hr' : 0 <= c < zlen numbers) by lia. clear Hr. rename Hr' into Hr.
    destruct (Hm c c) as (y & Hy & Hf); [apply znth_zseq; exact Hr|].
    destruct (last_of_class_spec numbers c) as [(E & H')|(e & He & Hcl & E)]; rewrite E in Hf; [discriminate|].
    injection Hf as <-. rewrite Hy in Hc. injection Hc as <-. split; [exact Hcl|]. exists (fst e). destruct e. exact He.
Qed.

Section SAME.
  Context {P : Type} (M : methods P) (t : tower P) (Hok : tower_ok M t).
  Definition imported (a : num P) : num P := match a with NT _ => a | _ => Import t a end.

  Lemma uptypes_raised : forall k p na,
    assoc (Numbers t) (ptype M p) = Some na ->
    match uptypes t k (Class na) na (NT p) with
    | Ok (a', na') => raised M t k (NT p) a' /\ exists q, a' = NT q /\ assoc (Numbers t) (ptype M q) = Some na' /\ Class na' = Class na + Z.of_nat k
    | Err => forall a', ~ raised M t k (NT p) a'
    | Panic => False
    end.
  Proof.
    induction k as [|k IH]; intros p na Hna; cbn [uptypes].
    - split; [constructor|]. exists p. split; [reflexivity|]. split; [exact Hna|lia].
    - destruct (Uptype na (NT p)) as (oa & ok) eqn:Eu. destruct ok.
      + destruct oa as [a1|].
        2:{ apply (ok_some _ _ Hok p na Hna); rewrite Eu; reflexivity. }
        destruct (ok_up _ _ Hok p na a1 Hna) as (Hc & q & ->); [rewrite Eu; reflexivity|rewrite Eu; reflexivity|].
        cbn [class_of] in Hc. destruct (assoc (Numbers t) (ptype M q)) as [nq|] eqn:Eq; [|discriminate].
        cbn [option_map] in Hc. injection Hc as Hc.
        pose proof (ok_class _ _ Hok _ _ Eq) as Hz. unfold zat. rewrite Hc in Hz. rewrite Hz. cbn [obind].
        specialize (IH q nq Eq). rewrite Hc in IH.
        destruct (uptypes t k (Class na + 1) nq (NT q)) as [(a', na')| |] eqn:E.
        * destruct IH as (Hr & q' & -> & H1 & H2). split; [econstructor; [exact Hna|exact Eu|exact Hr]|].
          exists q'. split; [reflexivity|]. split; [exact H1|lia].
        * intros a' Hr. inversion Hr as [|? ? nu ? ? Hl Hu Hr']; subst. rewrite Hna in Hl. injection Hl as <-. rewrite Eu in Hu. injection Hu as <-.
          exact (IH _ Hr').
        * exact IH.
      + replace (match oa with Some _ | _ => @Err (num P * numeric P) end) with (@Err (num P * numeric P)) by (destruct oa; reflexivity). intros a' Hr. inversion Hr as [|? ? nu ? ? Hl Hu Hr']; subst. rewrite Hna in Hl. injection Hl as <-. rewrite Eu in Hu. discriminate.
  Qed.
  Lemma raised_fun : forall k a b c, raised M t k a b -> raised M t k a c -> b = c.
  Proof.
    induction k as [|k IH]; intros a b c H1 H2; inversion H1; subst; inversion H2; subst; [reflexivity|].
    assert (nu0 = nu) by congruence. subst. assert (a1 = a0) by congruence. subst. eapply IH; eassumption.
  Qed.
  Lemma lookup_class a c : class_of M t a = Some c -> 0 <= c -> exists p na, a = NT p /\ assoc (Numbers t) (ptype M p) = Some na /\ Class na = c /\ lookup M t a = Some na.
  Proof.
    intros H Hc. destruct a as [b|n|p]; cbn in H; try (injection H as <-; lia).
    destruct (assoc (Numbers t) (ptype M p)) as [na|] eqn:E; [|discriminate]. injection H as <-. exists p, na. repeat split; assumption.
  Qed.
  Lemma imported_NT a : exists p, imported a = NT p.
  Proof. destruct a as [b|n|p]; cbn [imported]; [| |eauto]; [destruct (ok_import _ _ Hok (NB b)) as (p & H & _)|destruct (ok_import _ _ Hok (NI n)) as (p & H & _)]; eauto. Qed.

  (* the general case of SameType *)
  Lemma same_type_general a b :
    typeOf M a <> typeOf M b -> (forall x y, ~ (a = NB x /\ b = NI y)) -> (forall x y, ~ (a = NI x /\ b = NB y)) ->
    match SameType M t a b with
    | Ok (a', b') => exists ca cb, class_of M t (imported a) = Some ca /\ class_of M t (imported b) = Some cb /\
        raised M t (Z.to_nat (cb - ca)) (imported a) a' /\ raised M t (Z.to_nat (ca - cb)) (imported b) b' /\ typeOf M a' = typeOf M b'
    | Err => class_of M t (imported a) = None \/ class_of M t (imported b) = None \/
        exists ca cb, class_of M t (imported a) = Some ca /\ class_of M t (imported b) = Some cb /\
          ((ca < cb /\ forall a', ~ raised M t (Z.to_nat (cb - ca)) (imported a) a') \/
           (cb < ca /\ forall b', ~ raised M t (Z.to_nat (ca - cb)) (imported b) b'))
    | Panic => False
    end.
  Proof.
    intros Hty Hbi Hib.
    assert (Hne : ntype_eqb (typeOf M a) (typeOf M b) = false).
    { destruct (typeOf M a) as [| |s], (typeOf M b) as [| |r]; try reflexivity; try congruence. cbn. destruct (Z.eqb_spec s r); [congruence|reflexivity]. }
    assert (E : SameType M t a b =
      match lookup M t (imported a), lookup M t (imported b) with
                | Some na, Some nb =>
                  let* (a0, na0) := uptypes t (Z.to_nat (Class nb - Class na)) (Class na) na (imported a) in
                  let* (b0, _) := uptypes t (Z.to_nat (Class na0 - Class nb)) (Class nb) nb (imported b) in Ok (a0, b0)
                | _, _ => Err end).
    { unfold SameType. rewrite Hne. destruct a as [x|x|x], b as [y|y|y]; try reflexivity; exfalso; [apply (Hbi x y)|apply (Hib x y)]; split; reflexivity. }
    rewrite E. clear E.
    destruct (imported_NT a) as (p & Hp), (imported_NT b) as (q & Hq). rewrite Hp, Hq. cbn [lookup class_of].
    destruct (assoc (Numbers t) (ptype M p)) as [na|] eqn:Ea; [|left; reflexivity].
    destruct (assoc (Numbers t) (ptype M q)) as [nb|] eqn:Eb; [|right; left; reflexivity]. cbn [option_map].
    pose proof (uptypes_raised (Z.to_nat (Class nb - Class na)) p na Ea) as H1.
    destruct (uptypes t (Z.to_nat (Class nb - Class na)) (Class na) na (NT p)) as [(a', na')| |]; cbn [obind].
    - destruct H1 as (Hr & p' & -> & Hl & Hcl).
      assert (Hd : Z.to_nat (Class na' - Class nb) = Z.to_nat (Class na - Class nb)) by lia. rewrite Hd.
      pose proof (uptypes_raised (Z.to_nat (Class na - Class nb)) q nb Eb) as H2.
      destruct (uptypes t (Z.to_nat (Class na - Class nb)) (Class nb) nb (NT q)) as [(b', nb')| |]; cbn [obind].
      + destruct H2 as (Hr2 & q' & -> & Hl2 & Hcl2). exists (Class na), (Class nb). repeat split; try assumption.
        cbn [typeOf]. f_equal. eapply (ok_inj _ _ Hok); [exact Hl|exact Hl2|lia].
      + right. right. exists (Class na), (Class nb). split; [reflexivity|]. split; [reflexivity|]. right. split; [|exact H2].
        destruct (Z.lt_ge_cases (Class nb) (Class na)); [assumption|]. exfalso. replace (Z.to_nat (Class na - Class nb)) with 0%nat in H2 by lia.
        eapply H2. constructor.
      + exact H2.
    - right. right. exists (Class na), (Class nb). split; [reflexivity|]. split; [reflexivity|]. left. split; [|exact H1].
      destruct (Z.lt_ge_cases (Class na) (Class nb)); [assumption|]. exfalso. replace (Z.to_nat (Class nb - Class na)) with 0%nat in H1 by lia.
      eapply H1. constructor.
    - exact H1.
  Qed.
End SAME.
