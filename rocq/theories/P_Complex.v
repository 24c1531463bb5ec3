(* P_Complex.v -- arithmetic of complex numbers: signs, order of operands, embedding of the reals. *)
From Coq Require Import ZArith Reals List Bool Lia Floats.SpecFloat.
From Flocq Require Import Core.Core IEEE754.BinarySingleNaN.
From Verif Require Import Base M_Number M_Complex P_Float S_Complex.
Open Scope Z_scope.

Lemma opp_opp x : SFopp (SFopp x) = x.
Proof. destruct x; cbn; rewrite ?Bool.negb_involutive; reflexivity. Qed.
Lemma sameF_refl x : sameF x x. Proof. left. reflexivity. Qed.
Lemma sameF_sym x y : sameF x y -> sameF y x.
Proof. intros [->|(s & t & -> & ->)]; [left; reflexivity|right; eauto]. Qed.
Lemma sameF_trans x y z : sameF x y -> sameF y z -> sameF x z.
Proof. intros [->|(s & t & -> & ->)] H; [exact H|]. destruct H as [<-|(s' & t' & E & ->)]; right; eauto. Qed.
Lemma sameF_opp x y : sameF x y -> sameF (SFopp x) (SFopp y).
Proof. intros [->|(s & t & -> & ->)]; [left; reflexivity|right; cbn; eauto]. Qed.

Lemma bra_sign s m e l : SpecFloat.binary_round_aux fprec femax (negb s) m e l = SFopp (SpecFloat.binary_round_aux fprec femax s m e l).
Proof.
  unfold SpecFloat.binary_round_aux. destruct (SpecFloat.shr_fexp fprec femax m e l) as [mrs e'].
  destruct (SpecFloat.shr_fexp fprec femax _ e' loc_Exact) as [mrs'' e'']. destruct (SpecFloat.shr_m mrs''); [reflexivity| |reflexivity].
  destruct (e'' <=? femax - fprec); reflexivity.
Qed.
Lemma br_sign s m e : SpecFloat.binary_round fprec femax (negb s) m e = SFopp (SpecFloat.binary_round fprec femax s m e).
Proof. unfold SpecFloat.binary_round. destruct (SpecFloat.shl_align m e _) as [mz ez]. apply bra_sign. Qed.
Lemma bn_sign m e : m <> 0 -> forall z z', SpecFloat.binary_normalize fprec femax (- m) e z = SFopp (SpecFloat.binary_normalize fprec femax m e z').
Proof.
  intros Hm z z'. destruct m as [|p|p]; [congruence| |]; cbn [Z.opp SpecFloat.binary_normalize].
  - exact (br_sign false p e).
  - exact (br_sign true p e).
Qed.

Lemma f_mul_comm x y : f_mul x y = f_mul y x.
Proof.
  unfold f_mul. destruct x as [sx|sx| |sx mx ex], y as [sy|sy| |sy my ey]; cbn; try rewrite (Bool.xorb_comm sx sy); try reflexivity.
  rewrite Pos.mul_comm, Z.add_comm. reflexivity.
Qed.
Lemma f_add_comm x y : f_add x y = f_add y x.
Proof.
  unfold f_add. destruct x as [sx|sx| |sx mx ex], y as [sy|sy| |sy my ey]; cbn [SFadd]; try reflexivity.
  - destruct sx, sy; reflexivity.
  - destruct sx, sy; reflexivity.
  - rewrite Z.min_comm, Z.add_comm. reflexivity.
Qed.
Lemma f_mul_opp_l x y : f_mul (SFopp x) y = SFopp (f_mul x y).
Proof.
  unfold f_mul. destruct x as [sx|sx| |sx mx ex], y as [sy|sy| |sy my ey]; cbn [SFmul SFopp]; try reflexivity; try (destruct sx, sy; reflexivity).
  rewrite <- Bool.negb_xorb_l. apply bra_sign.
Qed.
Lemma f_mul_opp_r x y : f_mul x (SFopp y) = SFopp (f_mul x y).
Proof. rewrite f_mul_comm, f_mul_opp_l, f_mul_comm. reflexivity. Qed.
Lemma f_sub_add x y : f_sub x y = f_add x (SFopp y).
Proof.
  unfold f_sub, f_add. destruct x as [sx|sx| |sx mx ex], y as [sy|sy| |sy my ey]; cbn [SFsub SFadd SFopp]; try reflexivity; try (destruct sx, sy; reflexivity).
Qed.
Lemma f_add_opp x y : sameF (f_add (SFopp x) (SFopp y)) (SFopp (f_add x y)).
Proof.
  unfold f_add. destruct x as [sx|sx| |sx mx ex], y as [sy|sy| |sy my ey]; cbn [SFadd SFopp]; try (left; reflexivity); try (destruct sx, sy; cbn; (left; reflexivity) || (right; eauto; fail)).
  set (ez := Z.min ex ey). set (a := fst (SpecFloat.shl_align mx ex ez)). set (b := fst (SpecFloat.shl_align my ey ez)).
  assert (E : SpecFloat.cond_Zopp (negb sx) (Zpos a) + SpecFloat.cond_Zopp (negb sy) (Zpos b) = - (SpecFloat.cond_Zopp sx (Zpos a) + SpecFloat.cond_Zopp sy (Zpos b)))
    by (destruct sx, sy; cbn [SpecFloat.cond_Zopp negb]; lia).
  fold a b. rewrite E. destruct (Z.eq_dec (SpecFloat.cond_Zopp sx (Zpos a) + SpecFloat.cond_Zopp sy (Zpos b)) 0) as [->|N].
  - right. cbn. eauto.
  - left. apply bn_sign. exact N.
Qed.
Lemma f_add_same_l x x' y : sameF x x' -> sameF (f_add x y) (f_add x' y).
Proof.
  intros [->|(s & t & -> & ->)]; [left; reflexivity|]. unfold f_add. destruct y as [sy|sy| |sy my ey]; cbn [SFadd]; try (left; reflexivity).
  destruct s, t, sy; cbn; right; eauto.
Qed.
Lemma f_add_same x x' y y' : sameF x x' -> sameF y y' -> sameF (f_add x y) (f_add x' y').
Proof.
  intros H1 H2. eapply sameF_trans; [apply f_add_same_l; exact H1|]. rewrite !(f_add_comm x'). apply f_add_same_l. exact H2.
Qed.

(* finite doubles *)
Definition no_inf (x : spec_float) : Prop := match x with S754_zero _ | S754_finite _ _ _ => True | _ => False end.
Lemma finite_no_inf x : finiteF x -> no_inf x.
Proof. intros (r & b & <- & F & _). destruct b; cbn in *; auto; discriminate. Qed.
Lemma mul_zero_r x s : no_inf x -> exists t, f_mul x (S754_zero s) = S754_zero t.
Proof. destruct x; cbn; intros H; try contradiction; eexists; reflexivity. Qed.
Lemma mul_zero_l x s : no_inf x -> exists t, f_mul (S754_zero s) x = S754_zero t.
Proof. intros H. rewrite f_mul_comm. apply mul_zero_r. exact H. Qed.
Lemma add_zero_r x s : sameF (f_add x (S754_zero s)) x.
Proof. destruct x as [t|t| |t m e]; try (left; reflexivity). destruct s, t; cbn; right; eauto. Qed.
Lemma add_zero_l x s : sameF (f_add (S754_zero s) x) x.
Proof. rewrite f_add_comm. apply add_zero_r. Qed.
Lemma sub_zero_r x s : sameF (f_sub x (S754_zero s)) x.
Proof. rewrite f_sub_add. apply add_zero_r. Qed.
Lemma repr_one : repr f1 1%R.
Proof. apply (of_int_repr 1). vm_compute. discriminate. Qed.
Lemma mul_one_r x : finiteF x -> f_mul x f1 = x.
Proof.
  intros (r & b & <- & F & R1). destruct repr_one as (o & Eo & Fo & Ro). rewrite <- Eo, mul_sf.
  f_equal. pose proof (Bmult_correct 53 1024 _ _ mode_NE b o) as C. rewrite Ro in C. rewrite Rmult_1_r in C.
  change (round_mode mode_NE) with ZnearestE in C.
  rewrite round_generic in C; [|apply valid_rnd_N|apply generic_format_B2R].
  rewrite Rlt_bool_true in C by (apply abs_B2R_lt_emax). destruct C as (C1 & C2 & C3).
  rewrite F, Fo in C2. cbn in C2. assert (Nn : is_nan (Bmult mode_NE b o) = false) by (destruct (Bmult mode_NE b o); try discriminate; reflexivity).
  specialize (C3 Nn). apply B2R_Bsign_inj; [exact C2|exact F|exact C1|]. rewrite C3.
  assert (So : Bsign o = false). { destruct o as [s|s| |s m e B]; cbn in *; try discriminate. destruct s; [|reflexivity]. exfalso. revert Eo. vm_compute. discriminate. }
  rewrite So, Bool.xorb_false_r. reflexivity.
Qed.

(* ---- literals ---- *)
Open Scope Z_scope.
Lemma split_none c s : ~ In c s -> split_at c s = None.
Proof. induction s as [|x r IH]; intros N; [reflexivity|]. cbn [split_at]. destruct (Z.eqb_spec x c) as [->|_]; [exfalso; apply N; left; reflexivity|]. rewrite IH; [reflexivity|]. intros I. apply N. right. exact I. Qed.
Lemma split_some c x y : ~ In c x -> split_at c (x ++ c :: y) = Some (x, y).
Proof. induction x as [|d r IH]; intros N; cbn [app split_at]; [rewrite Z.eqb_refl; reflexivity|]. destruct (Z.eqb_spec d c) as [->|_]; [exfalso; apply N; left; reflexivity|]. rewrite IH; [reflexivity|]. intros I. apply N. right. exact I. Qed.
Lemma replace_none a b s : ~ In a s -> replace a b s = s.
Proof. induction s as [|x r IH]; intros N; [reflexivity|]. unfold replace in *. cbn [map]. destruct (Z.eqb_spec x a) as [->|_]; [exfalso; apply N; left; reflexivity|]. rewrite IH; [reflexivity|]. intros I. apply N. right. exact I. Qed.
Lemma replace_back a b s : ~ In b s -> replace b a (replace a b s) = s.
Proof.
  induction s as [|x r IH]; intros N; [reflexivity|]. unfold replace in *. cbn [map]. rewrite IH by (intros I; apply N; right; exact I). f_equal.
  destruct (Z.eqb_spec x a) as [->|_]; [rewrite Z.eqb_refl; reflexivity|]. destruct (Z.eqb_spec x b) as [->|_]; [exfalso; apply N; left; reflexivity|reflexivity].
Qed.
Lemma trim_none s : (forall r, s <> r ++ [46]) -> trim_point s = s.
Proof.
  intros H. unfold trim_point. destruct (rev s) as [|x r] eqn:E; [reflexivity|]. destruct (Z.eqb_spec x r_point) as [->|_]; [|reflexivity].
  exfalso. apply (H (rev r)). rewrite <- (rev_involutive s), E. reflexivity.
Qed.
