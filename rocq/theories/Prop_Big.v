(* Prop_Big.v -- numbers behind pointers: C135, C136. *)
From Coq Require Import String QArith Qabs Qround Qpower Qfield Qcanon Lia.
From Verif Require Import Base M_Array S_Array P_Array Eff M_Number S_Number P_Number M_Big S_Big P_Big P_Big2 P_Big3 P_Big4 P_Big5.
Open Scope Z_scope.

Section CLAIMS.
  (* rounding, roots, conversion to float64, exponential, logarithm and power
     of floating point numbers may be any functions *)
  Context (rnd : Z -> Q -> fl) (sqt : Z -> Q -> fl) (f64 : fl -> fl).
  Context (fexp flog : flt -> flt) (fpow : flt -> flt -> flt).
  Notation arith1 := (arith1 rnd sqt f64 fexp flog). Notation arith2 := (arith2 rnd f64 flog fpow).

  Lemma extends_unchanged h h' : extends h h' -> unchanged h h'.
  Proof. intros [_ X]. exact X. Qed.

  (* ================ C135 ================ *)
  Theorem C135_one_argument : forall tw o v h res h',
    ~ (o = Sgn /\ exists re im, v = VC re im) -> arith1 tw o v h = (res, h') -> unchanged h h'.
  Proof.
    intros tw o v h res h' Hn E.
    assert (D : ~ (o = Sgn /\ is_complex v)) by (intros [Ho Hv]; apply Hn; split; [exact Ho|]; destruct v; try contradiction; eauto).
    exact (extends_unchanged _ _ (proj1 (kept_keeps h _ _ (k_arith1 rnd sqt f64 fexp flog fpow (zlen h) tw o v D) h res h' (extends_refl h) E))).
  Qed.
  Theorem C135_two_arguments : forall tw o l r h res h',
    (o = Pow -> forall p q, r = VR p -> znth h p = Some (CRat q) -> (0 <= q)%Q) ->
    (forall p, r = VR p -> exists q, znth h p = Some (CRat q)) ->
    arith2 tw o l r h = (res, h') -> unchanged h h'.
  Proof.
    intros tw o l r h res h' Hn Hw E.
    assert (X : exponent_ok h o r).
    { intros Ho p Ep. destruct (Hw p Ep) as [q Hq]. right. exists q. split; [exact Hq|]. pose proof (Hn Ho p q Ep Hq) as L. unfold Qle in L. cbn in L. lia. }
    exact (extends_unchanged _ _ (proj1 (kept_arith2 rnd sqt f64 flog fpow h tw o l r X h res h' (extends_refl h) E))).
  Qed.
  (* the result consists of new objects or is one of the arguments *)
  Theorem C135_result : forall tw o l r h v h' p,
    (o = Pow -> forall p q, r = VR p -> znth h p = Some (CRat q) -> (0 <= q)%Q) ->
    (forall p, r = VR p -> exists q, znth h p = Some (CRat q)) ->
    arith2 tw o l r h = (Ok v, h') -> In p (objects v) -> 0 <= p -> fresh_after h p \/ In p (objects l) \/ In p (objects r).
  Proof.
    intros tw o l r h v h' p Hn Hw E Hp P0.
    assert (X : exponent_ok h o r).
    { intros Ho p1 Ep. destruct (Hw p1 Ep) as [q Hq]. right. exists q. split; [exact Hq|]. pose proof (Hn Ho p1 q Ep Hq) as L. unfold Qle in L. cbn in L. lia. }
    pose proof (proj2 (kept_arith2 rnd sqt f64 flog fpow h tw o l r X h _ h' (extends_refl h) E) v eq_refl) as F.
    unfold from in F. rewrite Forall_forall in F. destruct (F p Hp) as [F1|[F1|F1]]; [lia|left; exact F1|right; apply in_app_or; exact F1].
  Qed.
  (* a rational that is used as a negative exponent changes its sign *)
  Theorem C135_exponent_refuted : forall l p x q h res h',
    stands h l x -> znth h p = Some (CRat q) -> Qred q = q -> (q < 0)%Q ->
    arith2 Exact Pow l (VR p) h = (res, h') -> znth h' p = Some (CRat (- q)).
  Proof. exact (arith2_negates rnd sqt f64 flog fpow). Qed.

  (* ================ C136 ================ *)
  Lemma gives_two o l r h z : exponent_ok h o r -> finally (arith2 Exact o l r h) z -> gives (arith2 Exact o l r) h z.
  Proof.
    intros X (v & h' & E & q' & V & Q). exists v, h', q'. split; [exact E|]. split; [exact V|]. split; [exact Q|].
    exact (extends_unchanged _ _ (proj1 (kept_arith2 rnd sqt f64 flog fpow h Exact o l r X h _ h' (extends_refl h) E))).
  Qed.
  Lemma gives_one o v h z : ~ is_complex v -> finally (arith1 Exact o v h) z -> gives (arith1 Exact o v) h z.
  Proof.
    intros X (w & h' & E & q' & V & Q). exists w, h', q'. split; [exact E|]. split; [exact V|]. split; [exact Q|].
    assert (D : ~ (o = Sgn /\ is_complex v)) by tauto.
    exact (extends_unchanged _ _ (proj1 (kept_keeps h _ _ (k_arith1 rnd sqt f64 fexp flog fpow (zlen h) Exact o v D) h _ h' (extends_refl h) E))).
  Qed.
  Lemma xo o h r : o <> Pow -> exponent_ok h o r.
  Proof. intros Ho E. exfalso. exact (Ho E). Qed.
  Lemma stands_plain h v q : stands h v q -> ~ is_complex v.
  Proof. intros [] HH; exact HH. Qed.
  Lemma fits_inject n : fits_q (inject_Z n) <-> fits n.
  Proof. unfold fits_q, fits, minint, maxint. rewrite <- !Zle_Qle. lia. Qed.
  Lemma fits_q_comp p q : (p == q)%Q -> fits_q p -> fits_q q.
  Proof. intros E [A B]. split; rewrite <- E; assumption. Qed.
  Lemma small_stands n : fits n -> forall h, stands h (VS n) (inject_Z n).
  Proof. intros Hn h. constructor. unfold fits, minint, maxint in *. lia. Qed.
  Ltac crush2 := match goal with
    | |- maybe (_, _) _ => eexists (Some _), _; split; [reflexivity|]; let v := fresh in let E := fresh in intros v E; injection E as <-
    end.
  Theorem C136_add : forall h l r x y, stands h l x -> stands h r y -> (small l -> small r -> fits_q (x + y)) -> gives (arith2 Exact Add l r) h (x + y).
  Proof.
    intros h l r x y Hl Hr Hf. apply gives_two; [apply xo; discriminate|]. apply arith2_value with (x := x) (y := y); auto; try reflexivity.
    - intros a b h1 X S1 S2 Ra Rb Ha Hb. exists (Some (VS (int_add2 a b))), h1. split; [reflexivity|]. intros v E; injection E as <-. specialize (Hf S1 S2).
      assert (F : fits (a + b)) by (apply fits_inject; eapply fits_q_comp; [|exact Hf]; rewrite inject_Z_plus, Ha, Hb; reflexivity).
      unfold int_add2. rewrite wrap_id by exact F. exists (inject_Z (a + b)). split; [apply small_stands; exact F|]. rewrite inject_Z_plus, Ha, Hb. reflexivity.
    - intros p q a b h1 X Hp Hq Ha Hb. cbn [M_Big.call2]. rewrite (Int_bin_run Z.add h1 p q a b Hp Hq). eexists (Some _), _. split; [reflexivity|]. intros v E; injection E as <-.
      eexists. split; [apply stands_new_int|]. rewrite inject_Z_plus, Ha, Hb. reflexivity.
    - intros p q a b h1 X Hp Hq _ _ _ Ha Hb. cbn [M_Big.call2]. rewrite (Rat_bin_run Qplus h1 p q a b Hp Hq). eexists _, _. split; [reflexivity|].
      eexists. split; [apply stands_new_rat|]. rewrite Qred_correct, Ha, Hb. reflexivity.
    - apply xo; discriminate.
  Qed.
  Theorem C136_subtract : forall h l r x y, stands h l x -> stands h r y -> (small l -> small r -> fits_q (x - y)) -> gives (arith2 Exact Sub l r) h (x - y).
  Proof.
    intros h l r x y Hl Hr Hf. apply gives_two; [apply xo; discriminate|]. apply arith2_value with (x := x) (y := y); auto; try reflexivity.
    - intros a b h1 X S1 S2 Ra Rb Ha Hb. exists (Some (VS (int_sub2 a b))), h1. split; [reflexivity|]. intros v E; injection E as <-. specialize (Hf S1 S2).
      assert (IS : (inject_Z (a - b) == x - y)%Q) by (unfold Z.sub; rewrite inject_Z_plus, inject_Z_opp, Ha, Hb; reflexivity).
      assert (F : fits (a - b)) by (apply fits_inject; eapply fits_q_comp; [symmetry; exact IS|exact Hf]).
      unfold int_sub2. rewrite wrap_id by exact F. exists (inject_Z (a - b)). split; [apply small_stands; exact F|exact IS].
    - intros p q a b h1 X Hp Hq Ha Hb. cbn [M_Big.call2]. rewrite (Int_bin_run Z.sub h1 p q a b Hp Hq). eexists (Some _), _. split; [reflexivity|]. intros v E; injection E as <-.
      eexists. split; [apply stands_new_int|]. unfold Z.sub. rewrite inject_Z_plus, inject_Z_opp, Ha, Hb. reflexivity.
    - intros p q a b h1 X Hp Hq _ _ _ Ha Hb. cbn [M_Big.call2]. rewrite (Rat_bin_run Qminus h1 p q a b Hp Hq). eexists _, _. split; [reflexivity|].
      eexists. split; [apply stands_new_rat|]. rewrite Qred_correct, Ha, Hb. reflexivity.
    - apply xo; discriminate.
  Qed.
  Theorem C136_multiply : forall h l r x y, stands h l x -> stands h r y -> (small l -> small r -> fits_q (x * y)) -> gives (arith2 Exact Mul l r) h (x * y).
  Proof.
    intros h l r x y Hl Hr Hf. apply gives_two; [apply xo; discriminate|]. apply arith2_value with (x := x) (y := y); auto; try reflexivity.
    - intros a b h1 X S1 S2 Ra Rb Ha Hb. exists (Some (VS (int_mul2 a b))), h1. split; [reflexivity|]. intros v E; injection E as <-. specialize (Hf S1 S2).
      assert (IS : (inject_Z (a * b) == x * y)%Q) by (rewrite inject_Z_mult, Ha, Hb; reflexivity).
      assert (F : fits (a * b)) by (apply fits_inject; eapply fits_q_comp; [symmetry; exact IS|exact Hf]).
      unfold int_mul2. rewrite wrap_id by exact F. exists (inject_Z (a * b)). split; [apply small_stands; exact F|exact IS].
    - intros p q a b h1 X Hp Hq Ha Hb. cbn [M_Big.call2]. rewrite (Int_bin_run Z.mul h1 p q a b Hp Hq). eexists (Some _), _. split; [reflexivity|]. intros v E; injection E as <-.
      eexists. split; [apply stands_new_int|]. rewrite inject_Z_mult, Ha, Hb. reflexivity.
    - intros p q a b h1 X Hp Hq _ _ _ Ha Hb. cbn [M_Big.call2]. rewrite (Rat_bin_run Qmult h1 p q a b Hp Hq). eexists _, _. split; [reflexivity|].
      eexists. split; [apply stands_new_rat|]. rewrite Qred_correct, Ha, Hb. reflexivity.
    - apply xo; discriminate.
  Qed.
  Theorem C136_divide : forall h l r x y, stands h l x -> stands h r y -> ~ (y == 0)%Q -> (small l -> small r -> fits_q (x / y)) ->
    gives (arith2 Exact Div l r) h (x / y).
  Proof.
    intros h l r x y Hl Hr Hy Hf. apply gives_two; [apply xo; discriminate|]. apply arith2_value with (x := x) (y := y); auto; try reflexivity.
    - intros a b h1 X S1 S2 Ra Rb Ha Hb. specialize (Hf S1 S2).
      assert (B0 : b <> 0) by (intros ->; apply Hy; rewrite <- Hb; reflexivity).
      assert (NM : ~ (a = minint /\ b = -1)).
      { intros [-> ->]. assert (IS : (inject_Z (2 ^ 63) == x / y)%Q) by (rewrite <- Ha, <- Hb; reflexivity).
        assert (fits (2 ^ 63)) by (apply fits_inject; eapply fits_q_comp; [symmetry; exact IS|exact Hf]). unfold fits in *. lia. }
      assert (FA : fits a) by (unfold fits, minint, maxint in *; lia). assert (FB : fits b) by (unfold fits, minint, maxint in *; lia).
      cbn [M_Big.call2]. exists (option_map VS (int_div2 a b)), h1. split; [reflexivity|]. intros v E.
      destruct (int_div2 a b) as [w|] eqn:ED; [|discriminate E]. injection E as <-.
      assert (W : w * b = a /\ fits w).
      { unfold int_div2 in ED. replace (b =? 0) with false in ED by lia. cbv zeta in ED.
        pose proof (quot_fits a b FA B0 NM) as FQ.
        rewrite (wrap_id _ FQ) in ED. assert (FM : fits (Z.quot a b * b)).
        { exact (quot_mul_fits a b FA B0). }
        rewrite (wrap_id _ FM) in ED. destruct (Z.quot a b * b =? a) eqn:EQ; [|discriminate]. injection ED as <-. split; [lia|exact FQ]. }
      destruct W as [W FW]. exists (inject_Z w). split; [apply small_stands; exact FW|]. rewrite <- Ha, <- Hb, <- W, inject_Z_mult. field. intros Z0. apply B0. apply (proj1 (inject0 b)). exact Z0.
    - intros p q a b h1 X Hp Hq Ha Hb. cbn [M_Big.call2].
      assert (B0 : b <> 0) by (intros ->; apply Hy; rewrite <- Hb; reflexivity).
      destruct (Int_Div2_value h1 p q a b Hp Hq B0) as (oo & h2 & E & V). exists oo, h2. split; [exact E|]. intros v Ev. destruct (V v Ev) as (q' & S1 & Q1). exists q'. split; [exact S1|]. rewrite Q1, Ha, Hb. reflexivity.
    - intros p q a b h1 X Hp Hq _ _ _ Ha Hb. cbn [M_Big.call2]. assert (B0 : ~ (b == 0)%Q) by (rewrite Hb; exact Hy).
      destruct (Rat_Div2_value h1 p q a b Hp Hq B0) as (v & h2 & E & q' & S1 & Q1). exists v, h2. split; [exact E|]. exists q'. split; [exact S1|]. rewrite Q1, Ha, Hb. reflexivity.
    - apply xo; discriminate.
  Qed.
  (* powers with an integer exponent; y is the value of the exponent *)
  Theorem C136_power : forall h l r x y n, stands h l x -> stands h r y -> (y == inject_Z n)%Q -> (n < 0 -> ~ (x == 0)%Q) ->
    (n < 0 -> forall p, r <> VR p) ->
    gives (arith2 Exact Pow l r) h (Qpower x n).
  Proof.
    intros h l r x y n Hl Hr Hy Hx Hn.
    assert (X : exponent_ok h Pow r).
    { intros _ p ->. inversion Hr; subst. right. exists y. split; [assumption|]. destruct (Z_lt_le_dec n 0) as [N|N]; [exfalso; exact (Hn N p eq_refl)|].
      unfold Qeq in Hy. cbn in Hy. nia. }
    apply gives_two; [exact X|]. apply arith2_value with (x := x) (y := y); auto; try reflexivity.
    - intros a b h1 _ S1 S2 Ra Rb Ha Hb. eexists None, h1. split; [reflexivity|discriminate].
    - intros p q a b h1 _ Hp Hq Ha Hb. cbn [M_Big.call2]. destruct (Int_Pow2_value h1 p q a b Hp Hq) as (oo & h2 & E & V). exists oo, h2. split; [exact E|]. intros v Ev. destruct (V v Ev) as (q' & S1 & Q1). exists q'. split; [exact S1|].
      assert (b = n) by (rewrite Hy in Hb; unfold Qeq in Hb; cbn in Hb; lia). subst b. rewrite Q1. apply Qpower_comp; [exact Ha|reflexivity].
    - intros p q a b h1 _ Hp Hq Na Nb Hd Ha Hb. cbn [M_Big.call2].
      destruct (Rat_Pow2_value h1 p q a b n Hp Na Hq) as (v & h2 & E & q' & S1 & Q1).
      + rewrite Hb. exact Hy.
      + destruct (Z_lt_le_dec n 0) as [N|N]; [right|left; exact N]. split; [|rewrite Ha; exact (Hx N)].
        destruct Hd as [Hd|Hd]; [exfalso; exact (Hn N q Hd)|exact Hd].
      + exists v, h2. split; [exact E|]. exists q'. split; [exact S1|]. rewrite Q1. apply Qpower_comp; [exact Ha|reflexivity].
  Qed.
  (* the results of the functions of one argument *)
  Theorem C136_negate : forall h v x, stands h v x -> (small v -> fits_q (- x)) -> gives (arith1 Exact Neg v) h (- x).
  Proof.
    intros h v x Hv Hf. apply gives_one; [eapply stands_plain; exact Hv|]. apply arith1_value with (x := x); auto.
    - intros b h1 Hb. eexists None, h1. split; [reflexivity|discriminate].
    - intros a h1 S1 R Ha. specialize (Hf S1). assert (IS : (inject_Z (- a) == - x)%Q) by (rewrite inject_Z_opp, Ha; reflexivity).
      assert (F : fits (- a)) by (apply fits_inject; eapply fits_q_comp; [symmetry; exact IS|exact Hf]).
      eexists (Some _), h1. split; [reflexivity|]. intros w E; injection E as <-. unfold int_neg. rewrite wrap_id by exact F. eexists. split; [apply small_stands; exact F|exact IS].
    - intros p a h1 Hp Ha. cbn [M_Big.call1]. rewrite (Int_Neg_run h1 p a Hp). eexists (Some _), _. split; [reflexivity|]. intros w E; injection E as <-. eexists. split; [apply stands_new_int|]. rewrite inject_Z_opp, Ha. reflexivity.
    - intros p a h1 Hp Na Ha _. cbn [M_Big.call1]. rewrite (Rat_Neg_run h1 p a Hp). eexists _, _. split; [reflexivity|]. eexists. split; [apply stands_new_rat|]. rewrite Qred_correct, Ha. reflexivity.
  Qed.
  Theorem C136_magnitude : forall h v x, stands h v x -> (small v -> fits_q (Qabs x)) -> gives (arith1 Exact Abs v) h (Qabs x).
  Proof.
    intros h v x Hv Hf. apply gives_one; [eapply stands_plain; exact Hv|]. apply arith1_value with (x := x); auto.
    - intros b h1 Hb. eexists (Some (VB b)), h1. split; [reflexivity|]. intros w E; injection E as <-. exists (inject_Z (if b then 1 else 0)). split; [constructor|].
      rewrite <- Hb. destruct b; reflexivity.
    - intros a h1 S1 R Ha. specialize (Hf S1). assert (IS : (inject_Z (Z.abs a) == Qabs x)%Q) by (rewrite <- Ha; reflexivity).
      assert (F : fits (Z.abs a)) by (apply fits_inject; eapply fits_q_comp; [symmetry; exact IS|exact Hf]).
      eexists (Some _), h1. split; [reflexivity|]. intros w E; injection E as <-.
      assert (EI : int_abs a = Z.abs a) by (unfold int_abs; destruct (a <? 0) eqn:AN; [rewrite wrap_id; [lia|replace (- a) with (Z.abs a) by lia; exact F]|lia]).
      rewrite EI. eexists. split; [apply small_stands; exact F|exact IS].
    - intros p a h1 Hp Ha. cbn [M_Big.call1]. unfold Int_Abs, some. rewrite (ebind_ok _ _ _ _ _ (geti_at _ _ _ Hp)).
      assert (IS : (inject_Z (Z.abs a) == Qabs x)%Q) by (rewrite <- Ha; reflexivity).
      destruct (a <? 0) eqn:AN.
      + rewrite (Int_Neg_run h1 p a Hp). eexists (Some _), _. split; [reflexivity|]. intros w E; injection E as <-. eexists. split; [apply stands_new_int|]. replace (- a) with (Z.abs a) by lia. exact IS.
      + eexists (Some _), h1. split; [reflexivity|]. intros w E; injection E as <-. exists (inject_Z a). split; [constructor; exact Hp|]. rewrite <- IS. rewrite Z.abs_eq by lia. reflexivity.
    - intros p a h1 Hp Na Ha _. cbn [M_Big.call1]. unfold Rat_Abs, some. rewrite (ebind_ok _ _ _ _ _ (getr_at _ _ _ Hp)).
      destruct (qsign a <? 0) eqn:AN.
      + apply qsign_neg in AN. rewrite (Rat_Neg_run h1 p a Hp). eexists _, _. split; [reflexivity|]. eexists. split; [apply stands_new_rat|]. rewrite Qred_correct. rewrite <- Ha. rewrite Qabs_neg by (apply Qlt_le_weak; exact AN). reflexivity.
      + assert (AN2 : (0 <= a)%Q). { destruct (Qlt_le_dec a 0) as [N|N]; [|exact N]. apply qsign_neg in N. congruence. }
        eexists _, h1. split; [reflexivity|]. exists a. split; [constructor; assumption|]. rewrite <- Ha. rewrite Qabs_pos by exact AN2. reflexivity.
  Qed.
  (* the sign is -1, 0 or 1 *)
  Theorem C136_sign : forall h v x, stands h v x -> gives (arith1 Exact Sgn v) h (inject_Z (Z.sgn (Qnum x))).
  Proof.
    intros h v x Hv. apply gives_one; [eapply stands_plain; exact Hv|].
    assert (QS : forall a b : Q, (a == b)%Q -> Z.sgn (Qnum a) = Z.sgn (Qnum b)).
    { intros [an ad] [bn bd] E. unfold Qeq in E. cbn in *. destruct an; destruct bn; cbn in *; try reflexivity; lia. }
    apply arith1_value with (x := x); auto.
    - intros b h1 Hb. eexists None, h1. split; [reflexivity|discriminate].
    - intros a h1 S1 R Ha. eexists (Some _), h1. split; [reflexivity|]. intros w E; injection E as <-. rewrite <- (QS _ _ Ha). cbn [Qnum inject_Z].
      eexists. split; [apply small_stands|].
      + unfold int_sign, fits. destruct (0 <? a); destruct (a <? 0); lia.
      + unfold int_sign. destruct a; reflexivity.
    - intros p a h1 Hp Ha. cbn [M_Big.call1]. unfold Int_Sgn, some. rewrite (ebind_ok _ _ _ _ _ (geti_at _ _ _ Hp)). step.
      eexists (Some _), _. split; [reflexivity|]. intros w E; injection E as <-. eexists. split; [apply stands_new_int|]. rewrite <- (QS _ _ Ha). reflexivity.
    - intros p a h1 Hp Na Ha _. cbn [M_Big.call1]. unfold Rat_Sgn, some. rewrite (ebind_ok _ _ _ _ _ (getr_at _ _ _ Hp)). step.
      eexists _, _. split; [reflexivity|]. eexists. split; [apply stands_new_int|]. unfold qsign. rewrite (QS _ _ Ha). reflexivity.
  Qed.
  Theorem C136_reciprocal : forall h v x, stands h v x -> ~ (x == 0)%Q -> gives (arith1 Exact Rec v) h (/ x).
  Proof.
    intros h v x Hv Hx. apply gives_one; [eapply stands_plain; exact Hv|]. apply arith1_value with (x := x); auto.
    - intros b h1 Hb. eexists None, h1. split; [reflexivity|discriminate].
    - intros a h1 S1 R Ha. exists (option_map VS (int_div a)), h1. split; [reflexivity|]. intros w E. unfold int_div in E.
      destruct (a =? 1) eqn:A1; [|destruct (a =? -1) eqn:A2; [|discriminate E]]; injection E as <-;
        (eexists; split; [apply small_stands; unfold fits; lia|]; rewrite <- Ha).
      + assert (a = 1) by lia. subst a. reflexivity.
      + assert (a = -1) by lia. subst a. reflexivity.
    - intros p a h1 Hp Ha. cbn [M_Big.call1]. assert (A0 : a <> 0) by (intros ->; apply Hx; rewrite <- Ha; reflexivity).
      destruct (Int_Div_value h1 p a Hp A0) as (oo & h2 & E & V). exists oo, h2. split; [exact E|]. intros w Ew. destruct (V w Ew) as (q' & S1 & Q1). exists q'. split; [exact S1|]. rewrite Q1, Ha. reflexivity.
    - intros p a h1 Hp Na Ha _. cbn [M_Big.call1]. unfold Rat_Div, newR, rinv, some. rewrite (ebind_ok _ _ _ _ _ (getr_at _ _ _ Hp)).
      assert (A0 : ~ (a == 0)%Q) by (rewrite Ha; exact Hx). rewrite (proj2 (iszero_false a) A0). step.
      rewrite ebind_assoc. rewrite (ebind_ok _ _ _ a (h1 ++ [CRat 0])) by (apply getr_at, znth_old, Hp).
      assert (Qeq_bool a 0 = false) as -> by (destruct (Qeq_bool a 0) eqn:E; [apply Qeq_bool_eq in E; contradiction|reflexivity]).
      rewrite (ebind_ok _ _ _ _ _ (set_last h1 _ _)). eexists _, _. split; [reflexivity|]. eexists. split; [apply stands_new_rat|]. rewrite Qred_correct, Ha. reflexivity.
  Qed.
  (* the reciprocal of zero, integer or fraction, is the value +infinity *)
  Theorem C136_reciprocal_of_zero : forall h p,
    (znth h p = Some (CInt 0) -> arith1 Exact Rec (VI p) h = (Ok (VX "inf"), h)) /\
    (forall q, (q == 0)%Q -> znth h p = Some (CRat q) -> arith1 Exact Rec (VR p) h = (Ok (VX "inf"), h)).
  Proof.
    intros h p. split.
    - intros Hp. unfold M_Big.arith1. cbn [M_Big.call1]. unfold Int_Div, some. rewrite ebind_assoc, (ebind_ok _ _ _ _ _ (geti_at _ _ _ Hp)). reflexivity.
    - intros q Hq Hp. unfold M_Big.arith1. cbn [M_Big.call1]. unfold Rat_Div, some. rewrite ebind_assoc, (ebind_ok _ _ _ _ _ (getr_at _ _ _ Hp)).
      assert (Z0 : iszero q = true) by (destruct (iszero q) eqn:Z0; [reflexivity|]; apply iszero_false in Z0; contradiction). rewrite Z0. reflexivity.
  Qed.
  Theorem C136_factorial : forall h v x n, stands h v x -> (x == inject_Z n)%Q -> 0 <= n <= 300 -> (forall p, v <> VR p) ->
    gives (arith1 Exact Fact v) h (inject_Z (factorial (Z.to_nat n))).
  Proof.
    intros h v x n Hv Hx Hn Hr. apply gives_one; [eapply stands_plain; exact Hv|]. apply arith1_value with (x := x); auto.
    - intros b h1 Hb. eexists None, h1. split; [reflexivity|discriminate].
    - intros a h1 S1 R Ha. assert (a = n) by (rewrite Hx in Ha; unfold Qeq in Ha; cbn in Ha; lia). subst a.
      exists (option_map VS (int_gamma n)), h1. split; [reflexivity|]. intros w E. destruct (int_gamma_spec n) as [G1 G2].
      destruct (Z_lt_le_dec 20 n) as [B|B]; [rewrite G2 in E by lia; discriminate E|]. rewrite G1 in E by lia. injection E as <-. eexists. split; [apply small_stands|reflexivity].
      unfold fits. pose proof (factorial_le20 (Z.to_nat n) ltac:(lia)). pose proof (factorial_pos (Z.to_nat n)). assert (factorial 20 < 2 ^ 63) by (vm_compute; reflexivity). lia.
    - intros p a h1 Hp Ha. assert (a = n) by (rewrite Hx in Ha; unfold Qeq in Ha; cbn in Ha; lia). subst a.
      destruct (Int_Gamma_value h1 p n Hp Hn) as (w & h2 & E & V). exists (Some w), h2. split; [exact E|]. intros w' Ew; injection Ew as <-; exact V.
    - intros p a h1 Hp Na Ha [(p1 & n1 & h2 & P1 & N1 & E)|E].
      + exfalso. assert (n1 = n) by (rewrite Hx in N1; unfold Qeq in N1; cbn in N1; lia). subst n1.
        destruct (Int_Gamma_value h2 p1 n P1 Hn) as (w & h3 & E2 & _). cbn [M_Big.call1] in E. rewrite E2 in E. discriminate E.
      + exfalso. exact (Hr p E).
  Qed.
  (* comparisons: the result is 0 or 1 *)
  Definition truth (b : bool) : Q := inject_Z (if b then 1 else 0).
  Lemma qcompare_comp a b x y : (a == x)%Q -> (b == y)%Q -> Qcompare a b = Qcompare x y.
  Proof. intros A B. rewrite A, B. reflexivity. Qed.
  Lemma compare_values (g : comparison -> bool) o h l r x y :
    o <> Pow ->
    (forall a b h1, call2 rnd f64 flog fpow o (VS a) (VS b) h1 = (Ok (Some (VB (g (a ?= b)))), h1)) ->
    (forall p q a b h1, znth h1 p = Some (CInt a) -> znth h1 q = Some (CInt b) -> call2 rnd f64 flog fpow o (VI p) (VI q) h1 = (Ok (Some (VB (g (a ?= b)))), h1)) ->
    (forall p q a b h1, znth h1 p = Some (CRat a) -> znth h1 q = Some (CRat b) -> call2 rnd f64 flog fpow o (VR p) (VR q) h1 = (Ok (Some (VB (g (Qcompare a b)))), h1)) ->
    (forall a b h1, call2 rnd f64 flog fpow o (VB a) (VB b) h1 = (Ok (Some (VB (g (bool2int a ?= bool2int b)))), h1)) ->
    stands h l x -> stands h r y -> gives (arith2 Exact o l r) h (truth (g (Qcompare x y))).
  Proof.
    intros Ho CS CI CR CB Hl Hr. apply gives_two; [apply xo; exact Ho|].
    assert (ZQ : forall a b, (a ?= b) = Qcompare (inject_Z a) (inject_Z b)).
    { intros a b. unfold Qcompare. cbn [Qnum Qden inject_Z]. rewrite !Z.mul_1_r. reflexivity. }
    assert (ONE : forall b h1, exists q', stands h1 (VB b) q' /\ (q' == truth b)%Q) by (intros; eexists; split; [constructor|reflexivity]).
    apply arith2_value_b with (x := x) (y := y); auto.
    - intros a b h1 El Er. eexists. split; [apply CB|]. intros v E; injection E as <-.
      replace (Qcompare x y) with (bool2int a ?= bool2int b); [apply ONE|].
      rewrite ZQ. rewrite El in Hl. rewrite Er in Hr. inversion Hl as [b1 H1 H2| | |]. inversion Hr as [b2 H3 H4| | |]. reflexivity.
    - intros a b h1 X S1 S2 R1 R2 Ha Hb. eexists _, _. split; [apply CS|]. intros v E; injection E as <-. rewrite ZQ, (qcompare_comp _ _ _ _ Ha Hb). apply ONE.
    - intros p q a b h1 X P1 P2 Ha Hb. eexists _, _. split; [apply CI; eassumption|]. intros v E; injection E as <-. rewrite ZQ, (qcompare_comp _ _ _ _ Ha Hb). apply ONE.
    - intros p q a b h1 X P1 P2 _ _ _ Ha Hb. eexists _, _. split; [apply CR; eassumption|]. rewrite (qcompare_comp _ _ _ _ Ha Hb). apply ONE.
    - apply xo; exact Ho.
  Qed.
  Theorem C136_less : forall h l r x y, stands h l x -> stands h r y ->
    ((x < y)%Q -> gives (arith2 Exact LESS l r) h 1) /\ (~ (x < y)%Q -> gives (arith2 Exact LESS l r) h 0).
  Proof.
    intros h l r x y Hl Hr.
    assert (G : gives (arith2 Exact LESS l r) h (truth (is_lt (Qcompare x y)))).
    { apply compare_values; auto; try discriminate.
      - intros p q a b h1 P1 P2. cbn [M_Big.call2]. rewrite (ebind_ok _ _ _ _ _ (geti_at _ _ _ P1)), (ebind_ok _ _ _ _ _ (geti_at _ _ _ P2)). reflexivity.
      - intros p q a b h1 P1 P2. cbn [M_Big.call2]. rewrite (ebind_ok _ _ _ _ _ (getr_at _ _ _ P1)), (ebind_ok _ _ _ _ _ (getr_at _ _ _ P2)). reflexivity.
      - intros [] [] h1; reflexivity. }
    split; intros L.
    - rewrite (proj1 (Qlt_alt x y) L) in G. exact G.
    - destruct (Qcompare x y) eqn:E; try exact G. exfalso. apply L, Qlt_alt, E.
  Qed.
  Theorem C136_equal : forall h l r x y, stands h l x -> stands h r y ->
    ((x == y)%Q -> gives (arith2 Exact EQ l r) h 1) /\ (~ (x == y)%Q -> gives (arith2 Exact EQ l r) h 0).
  Proof.
    intros h l r x y Hl Hr.
    assert (G : gives (arith2 Exact EQ l r) h (truth (is_eq (Qcompare x y)))).
    { apply compare_values; auto; try discriminate.
      - intros a b h1. cbn [M_Big.call2]. rewrite Z.eqb_compare. reflexivity.
      - intros p q a b h1 P1 P2. cbn [M_Big.call2]. rewrite (ebind_ok _ _ _ _ _ (geti_at _ _ _ P1)), (ebind_ok _ _ _ _ _ (geti_at _ _ _ P2)), Z.eqb_compare. reflexivity.
      - intros p q a b h1 P1 P2. cbn [M_Big.call2]. rewrite (ebind_ok _ _ _ _ _ (getr_at _ _ _ P1)), (ebind_ok _ _ _ _ _ (getr_at _ _ _ P2)). reflexivity.
      - intros [] [] h1; reflexivity. }
    split; intros L.
    - rewrite (proj1 (Qeq_alt x y) L) in G. exact G.
    - destruct (Qcompare x y) eqn:E; try exact G. exfalso. apply L, Qeq_alt, E.
  Qed.
End CLAIMS.

(* ---------------- examples and refutations with concrete rounding ---------------- *)
Notation near := (fun p q => Fin (nearest p q)).
Notation A1 := (arith1 near root (round_fl 53) (fun x => x) (fun x => x)).
Notation A2 := (arith2 near (round_fl 53) (fun x => x) (fun x y => x)).
(* a heap with 2*70, 3r4, ¯3 as a rational and 3J4 *)
Definition ex_heap : heap := [CInt (2 ^ 70); CRat (3 # 4); CRat (-3 # 1); CFlt (mkF 64 (Fin 3)); CFlt (mkF 64 (Fin 4))].
Example C135_example : exists h', A2 Exact Add (VI 0) (VR 1) ex_heap = (Ok (VR 6), h') /\ unchanged ex_heap h' /\
  znth h' 6 = Some (CRat ((2 ^ 72 + 3)%Z # 4)).
Proof.
  destruct (A2 Exact Add (VI 0) (VR 1) ex_heap) as [r h'] eqn:E. exists h'.
  split; [|split].
  - assert (r = Ok (VR 6)) as -> by (replace r with (fst (A2 Exact Add (VI 0) (VR 1) ex_heap)) by (rewrite E; reflexivity); vm_compute; reflexivity). reflexivity.
  - apply (C135_two_arguments near root (round_fl 53) (fun x => x) (fun x y => x) Exact Add (VI 0) (VR 1) ex_heap r h'); [discriminate| |exact E].
    intros p Ep. injection Ep as <-. exists (3 # 4)%Q. reflexivity.
  - replace h' with (snd (A2 Exact Add (VI 0) (VR 1) ex_heap)) by (rewrite E; reflexivity). vm_compute. reflexivity.
Qed.
(* the signum of the complex number 3J4 leaves 1.25J5 in the place of 3J4 *)
Theorem C135_signum_refuted : exists h', A1 (Precise 64) Sgn (VC 3 4) ex_heap = (Ok (VC 5 6), h') /\
  znth ex_heap 3 = Some (CFlt (mkF 64 (Fin 3))) /\ znth h' 3 = Some (CFlt (mkF 64 (Fin (5 # 4)))) /\ znth h' 4 = Some (CFlt (mkF 64 (Fin 5))).
Proof. eexists. split; [vm_compute; reflexivity|]. repeat split. Qed.
Example C136_example : exists h' q, A2 Exact Pow (VI 0) (VS (-2)) ex_heap = (Ok (VR 10), h') /\ stands h' (VR 10) q /\ (q == Qpower (inject_Z (2 ^ 70)) (-2))%Q.
Proof. eexists _, _. split; [vm_compute; reflexivity|]. split; [constructor; vm_compute; reflexivity|]. vm_compute. reflexivity. Qed.
(* machine integers wrap around although the tower is exact *)
Theorem C136_overflow_refuted : exists h', A2 Exact Add (VS (2 ^ 63 - 1)) (VS 1) [] = (Ok (VS (- 2 ^ 63)), h') /\ ~ fits_q (inject_Z (2 ^ 63 - 1) + 1).
Proof. eexists. split; [vm_compute; reflexivity|]. intros [_ F]. vm_compute in F. apply F. reflexivity. Qed.
(* x*x for the rational x = ¯3: ¯3*¯3 is ¯1r27, the result is 1r27 *)
Theorem C136_self_power_refuted : exists h', A2 Exact Pow (VR 2) (VR 2) ex_heap = (Ok (VR 7), h') /\ stands ex_heap (VR 2) (-3 # 1) /\
  stands h' (VR 7) (1 # 27) /\ ~ ((1 # 27) == Qpower (-3 # 1) (-3))%Q.
Proof. eexists. split; [vm_compute; reflexivity|]. split; [constructor; reflexivity|]. split; [constructor; reflexivity|]. vm_compute. discriminate. Qed.
(* 0*¯1r2: the first attempt fails and leaves 1r2 behind, the second one gives 0 *)
Theorem C136_root_of_zero_refuted : exists h', A2 Exact Pow (VR 0) (VR 1) [CRat 0; CRat (-1 # 2)] = (Ok (VI 2), h') /\ znth h' 2 = Some (CInt 0) /\ znth h' 1 = Some (CRat (1 # 2)).
Proof. eexists. split; [vm_compute; reflexivity|]. split; reflexivity. Qed.
(* 0*¯2 is no error but a panic *)
Theorem C136_zero_power_refuted : fst (A2 Exact Pow (VS 0) (VS (-2)) []) = Panic.
Proof. vm_compute. reflexivity. Qed.
(* the floor of a rational goes through float64 *)
Theorem C136_floor_refuted : exists q h', A1 Exact Floor (VR 0) [CRat q] = (Ok (VR 1), h') /\
  stands [CRat q] (VR 0) q /\ exists w, stands h' (VR 1) w /\ (w == inject_Z (Qfloor q + 1))%Q.
Proof.
  exists ((2 ^ 54 + 3)%Z # 2)%Q. eexists. split; [vm_compute; reflexivity|]. split; [constructor; reflexivity|].
  eexists. split; [constructor; reflexivity|]. vm_compute. reflexivity.
Qed.
(* ¯1÷0 is +infinity *)
Theorem C136_division_by_zero_refuted : fst (A2 Exact Div (VI 0) (VI 1) [CInt (-1); CInt 0]) = Ok (VX "inf").
Proof. reflexivity. Qed.
Print Assumptions C135_two_arguments. Print Assumptions C135_one_argument. Print Assumptions C135_result. Print Assumptions C135_exponent_refuted.
Print Assumptions C136_power. Print Assumptions C136_divide. Print Assumptions C136_less. Print Assumptions C136_equal. Print Assumptions C136_factorial.
