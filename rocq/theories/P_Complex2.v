(* P_Complex2.v -- the floor of a complex number. *)
From Coq Require Import ZArith Reals List Bool Lia Lra Psatz Floats.SpecFloat.
From Flocq Require Import Core.Core IEEE754.BinarySingleNaN.
From Verif Require Import Base M_Number M_Complex P_Float S_Complex P_Complex.
Open Scope R_scope.

Lemma repr_fun f x y : repr f x -> repr f y -> x = y.
Proof. intros (b & E & F & <-) (b' & E' & F' & <-). rewrite <- E' in E. apply B2SF_inj in E. subst. reflexivity. Qed.
Lemma repr_format f x : repr f x -> generic_format radix2 fx x.
Proof. intros (b & _ & _ & <-). apply generic_format_B2R. Qed.
Lemma bounded_small m e : bounded 53 1024 m e = true -> (Z.pos m < 2 ^ 53)%Z.
Proof.
  intros B. unfold bounded in B. apply andb_prop in B as [B _]. apply Zeq_bool_eq in B. unfold SpecFloat.fexp, emin in B.
  rewrite Digits.Zpos_digits2_pos in B. pose proof (Digits.Zdigits_correct radix2 (Z.pos m)) as [_ D].
  set (d := Digits.Zdigits radix2 (Z.pos m)) in *. assert (d <= 53)%Z by lia. cbn [Z.abs] in D.
  eapply Z.lt_le_trans; [exact D|]. change (2 ^ 53)%Z with (Zpower radix2 53). apply Zpower_le. assumption.
Qed.
(* a double that is not an integer is small *)
Lemma repr_frac_small f x : repr f x -> frac x <> 0 -> Rabs x < IZR (2 ^ 52).
Proof.
  intros (b & E & F & <-) Hf. destruct b as [s|s| |s m e B]; try discriminate F.
  { exfalso. apply Hf. unfold frac. cbn [B2R]. change 0 with (IZR 0). rewrite Zfloor_IZR. ring. }
  unfold B2R in *. destruct (Z_lt_le_dec e 0) as [He|He].
  - rewrite <- F2R_Zabs. rewrite abs_cond_Zopp. cbn [Z.abs].
    pose proof (bounded_small m e B) as Hm.
    unfold F2R. cbn [Fnum Fexp]. apply Rle_lt_trans with (IZR (Z.pos m) * bpow radix2 (-1)).
    + apply Rmult_le_compat_l; [apply IZR_le; lia|apply bpow_le; lia].
    + replace (IZR (2 ^ 52)) with (IZR (2 ^ 53) * bpow radix2 (-1)).
      * apply Rmult_lt_compat_r; [apply bpow_gt_0|apply IZR_lt; exact Hm].
      * change (IZR (2^53)) with (bpow radix2 53). change (IZR (2^52)) with (bpow radix2 52). rewrite <- bpow_plus. reflexivity.
  - exfalso. apply Hf. unfold frac. unfold F2R. cbn [Fnum Fexp].
    assert (E' : bpow radix2 e = IZR (2 ^ e)) by (symmetry; apply (IZR_Zpower radix2); exact He).
    rewrite E', <- mult_IZR, Zfloor_IZR. ring.
Qed.
Lemma floor_gen f x : repr f x -> repr (f_floor f) (IZR (Zfloor x)).
Proof.
  intros H. destruct (Req_dec (frac x) 0) as [E|E].
  - (* an integer: f is its own floor *)
    assert (Ex : IZR (Zfloor x) = x) by (unfold frac in E; lra). rewrite Ex.
    destruct (Rle_lt_dec (IZR (2 ^ 53)) (Rabs x)) as [L|L].
    + destruct H as (b & <- & F & R1). destruct b as [s|s| |s m e B]; try discriminate F; try (exists (B754_zero s); auto; fail).
      unfold B2SF, f_floor. destruct (Z.leb_spec 0 e) as [He|He]; [exists (B754_finite s m e B); auto|].
      exfalso. revert L. apply Rlt_not_le. rewrite <- R1. unfold B2R. rewrite <- F2R_Zabs, abs_cond_Zopp. cbn [Z.abs].
      pose proof (bounded_small m e B) as Hm.
      unfold F2R. cbn [Fnum Fexp]. apply Rle_lt_trans with (IZR (Z.pos m) * 1).
      * apply Rmult_le_compat_l; [apply IZR_le; lia|]. change 1 with (bpow radix2 0). apply bpow_le. lia.
      * rewrite Rmult_1_r. apply IZR_lt. exact Hm.
    + assert (HH := floor_repr f x H). rewrite Ex in HH. apply HH.
      apply le_IZR. rewrite abs_IZR, Ex. lra.
  - pose proof (repr_frac_small f x H E) as S. apply floor_repr; [exact H|].
    apply Z.lt_le_incl. assert (Hb : (-2 ^ 52 <= Zfloor x < 2 ^ 52)%Z).
    { apply Rabs_def2 in S as [S1 S2]. split.
      - apply Zfloor_lub. rewrite opp_IZR. lra.
      - apply lt_IZR. apply Rle_lt_trans with x; [apply Zfloor_lb|exact S1]. }
    lia.
Qed.
Lemma frac_range x : 0 <= frac x < 1.
Proof. unfold frac. pose proof (Zfloor_lb x). pose proof (Zfloor_ub x). lra. Qed.
Lemma rnd_le x y : x <= y -> rnd x <= rnd y.
Proof. apply round_le; [apply fexp_correct; reflexivity|apply valid_rnd_N]. Qed.
Lemma rnd_unit x : 0 <= x <= 1 -> 0 <= rnd x <= 1.
Proof.
  intros [H1 H2]. rewrite <- (rnd_int 0) by lia. replace 1 with (rnd (IZR 1)) by (apply rnd_int; lia). split; apply rnd_le; assumption.
Qed.
Lemma rnd_two x : 0 <= x <= 2 -> 0 <= rnd x <= 2.
Proof.
  intros [H1 H2]. rewrite <- (rnd_int 0) by lia. replace 2 with (rnd (IZR 2)) by (apply rnd_int; lia). split; apply rnd_le; assumption.
Qed.
Lemma two_small x : 0 <= x <= 2 -> Rabs x <= IZR (2 ^ 54).
Proof. intros H. rewrite Rabs_pos_eq by lra. apply Rle_trans with 2; [lra|]. apply IZR_le. lia. Qed.
Lemma sub_frac f x : repr f x -> repr (f_sub f (f_floor f)) (rnd (frac x)).
Proof.
  intros H. pose proof (floor_gen f x H) as Hf. destruct H as (a & Ea & Fa & Ra). destruct Hf as (b & Eb & Fb & Rb).
  rewrite <- Eb. rewrite <- Ea at 1. exists (Bminus mode_NE a b). split; [symmetry; apply sub_sf|].
  pose proof (Bminus_correct 53 1024 _ _ mode_NE a b Fa Fb) as C. rewrite Ra, Rb in C. fold (frac x) in C.
  change (round_mode mode_NE) with ZnearestE in C. pose proof (frac_range x).
  rewrite small_bpow in C by (apply two_small; pose proof (rnd_unit (frac x) ltac:(lra)); lra).
  destruct C as (C1 & C2 & _). split; assumption.
Qed.
Lemma add_unit f g u v : repr f u -> repr g v -> 0 <= u <= 1 -> 0 <= v <= 1 -> repr (f_add f g) (rnd (u + v)).
Proof.
  intros (a & <- & Fa & Ra) (b & <- & Fb & Rb) Hu Hv. exists (Bplus mode_NE a b). split; [symmetry; apply add_sf|].
  pose proof (Bplus_correct 53 1024 _ _ mode_NE a b Fa Fb) as C. rewrite Ra, Rb in C.
  change (round_mode mode_NE) with ZnearestE in C. rewrite small_bpow in C by (apply two_small; apply rnd_two; lra).
  destruct C as (C1 & C2 & _). split; assumption.
Qed.
Lemma cmp_repr f g x y : repr f x -> repr g y -> SpecFloat.SFcompare f g = Some (Rcompare x y).
Proof.
  intros (a & <- & Fa & <-) (b & <- & Fb & <-). exact (Bcompare_correct 53 1024 a b Fa Fb).
Qed.
Lemma ltb_repr f g x y : repr f x -> repr g y -> SFltb f g = Rlt_bool x y.
Proof. intros H1 H2. unfold SFltb. rewrite (cmp_repr f g x y H1 H2). unfold Rlt_bool. reflexivity. Qed.
Lemma leb_repr f g x y : repr f x -> repr g y -> SFleb f g = Rle_bool x y.
Proof. intros H1 H2. unfold SFleb. rewrite (cmp_repr f g x y H1 H2). unfold Rle_bool. reflexivity. Qed.
Lemma rnd_double x : double x -> rnd x = x.
Proof. intros (f & H). apply round_generic; [apply valid_rnd_N|]. eapply repr_format; exact H. Qed.
Lemma one_plus_floor f x : repr f x -> rnd (frac x) <> 0 -> repr (f_add f1 (f_floor f)) (IZR (Zfloor x + 1)).
Proof.
  intros H N. assert (Nf : frac x <> 0) by (intros E; apply N; rewrite E; apply (rnd_int 0); lia).
  pose proof (repr_frac_small f x H Nf) as S. apply Rabs_def2 in S as [S1 S2].
  assert (B : (- 2 ^ 52 <= Zfloor x < 2 ^ 52)%Z).
  { split; [apply Zfloor_lub; rewrite opp_IZR; lra|]. apply lt_IZR. apply Rle_lt_trans with x; [apply Zfloor_lb|exact S1]. }
  rewrite Z.add_comm. apply add_repr; [exact repr_one|apply floor_gen; exact H|lia].
Qed.

(* the result, in terms of the rounded fractions *)
Lemma c_floor_repr a b x y : repr a x -> repr b y ->
  let u := rnd (frac x) in let v := rnd (frac y) in
  exists fi fj i j, c_floor (mkC a b) = Some (mkC fi fj) /\ repr fi (IZR i) /\ repr fj (IZR j) /\
    ((rnd (u + v) < 1 /\ i = Zfloor x /\ j = Zfloor y) \/
     (1 <= rnd (u + v) /\ v <= u /\ i = (Zfloor x + 1)%Z /\ j = Zfloor y) \/
     (1 <= rnd (u + v) /\ u < v /\ i = Zfloor x /\ j = (Zfloor y + 1)%Z)).
Proof.
  intros Ha Hb u v. pose proof (floor_gen a x Ha) as Fa. pose proof (floor_gen b y Hb) as Fb.
  pose proof (sub_frac a x Ha) as Sa. pose proof (sub_frac b y Hb) as Sb. fold u in Sa. fold v in Sb.
  pose proof (frac_range x) as Rx. pose proof (frac_range y) as Ry.
  assert (Ru : 0 <= u <= 1) by (apply rnd_unit; lra). assert (Rv : 0 <= v <= 1) by (apply rnd_unit; lra).
  pose proof (add_unit _ _ _ _ Sa Sb Ru Rv) as Sab.
  assert (Z0 : u + v = 0 -> rnd (u + v) = 0) by (intros ->; apply (rnd_int 0); lia).
  unfold c_floor. cbn [re im]. cbv zeta.
  rewrite (ltb_repr _ _ _ _ Sab repr_one), (leb_repr _ _ _ _ repr_one Sab), (leb_repr _ _ _ _ Sb Sa), (ltb_repr _ _ _ _ Sa Sb).
  destruct (Rlt_bool_spec (rnd (u + v)) 1) as [L|L].
  - exists (f_floor a), (f_floor b), (Zfloor x), (Zfloor y). auto 10.
  - rewrite (Rle_bool_true 1) by exact L. cbn [andb]. destruct (Rle_bool_spec v u) as [K|K].
    + exists (f_add f1 (f_floor a)), (f_floor b), (Zfloor x + 1)%Z, (Zfloor y). split; [reflexivity|].
      split; [apply one_plus_floor; [exact Ha|]; intros E; fold u in E; rewrite Z0 in L; lra|]. split; [exact Fb|]. auto 10.
    + rewrite Rlt_bool_true by exact K.
      exists (f_floor a), (f_add f1 (f_floor b)), (Zfloor x), (Zfloor y + 1)%Z. split; [reflexivity|]. split; [exact Fa|].
      split; [apply one_plus_floor; [exact Hb|]; intros E; fold v in E; lra|]. auto 10.
Qed.
(* outside the doubles *)
Lemma not_finite_cases x : (x = S754_nan \/ exists s, x = S754_infinity s) -> f_sub x (f_floor x) = S754_nan.
Proof. intros [->|[[] ->]]; reflexivity. Qed.
Lemma nan_add_l x : f_add S754_nan x = S754_nan. Proof. destruct x; reflexivity. Qed.
Lemma nan_add_r x : f_add x S754_nan = S754_nan. Proof. destruct x; reflexivity. Qed.

Lemma double_div n k : (Z.abs n < 2 ^ 53)%Z -> (0 <= k <= 52)%Z -> double (IZR n / IZR (2 ^ k)).
Proof.
  intros Hn Hk. assert (E2 : bpow radix2 (- k) = / IZR (2 ^ k)) by (rewrite bpow_opp; f_equal; symmetry; apply (IZR_Zpower radix2); lia).
  assert (Ef : F2R (Float radix2 n (- k)) = IZR n / IZR (2 ^ k)) by (unfold F2R; cbn [Fnum Fexp]; rewrite E2; reflexivity).
  assert (P : (0 < 2 ^ k)%Z) by (apply Z.pow_pos_nonneg; lia).
  exists (B2SF (binary_normalize 53 1024 _ _ mode_NE n (- k) false)). eexists. split; [reflexivity|].
  pose proof (binary_normalize_correct 53 1024 _ _ mode_NE n (- k) false) as C. cbv zeta in C. rewrite Ef in C.
  change (round_mode mode_NE) with ZnearestE in C.
  rewrite round_generic in C; [|apply valid_rnd_N|apply generic_format_FLT; exists (Float radix2 n (- k)); [symmetry; exact Ef|exact Hn|cbn [Fexp]; change (-1074 <= - k)%Z; lia]].
  rewrite small_bpow in C; [destruct C as (C1 & C2 & _); split; assumption|].
  unfold Rdiv. rewrite Rabs_mult, <- abs_IZR. rewrite (Rabs_right (/ IZR (2 ^ k))) by (left; apply Rinv_0_lt_compat; apply IZR_lt; lia).
  apply Rle_trans with (IZR (Z.abs n) * 1).
  - apply Rmult_le_compat_l; [apply IZR_le; lia|]. rewrite <- Rinv_1. apply Rinv_le; [lra|]. apply IZR_le. lia.
  - rewrite Rmult_1_r. apply IZR_le. lia.
Qed.
Lemma frac_div m d : (0 < d)%Z -> frac (IZR m / IZR d) = IZR (m mod d) / IZR d.
Proof.
  intros Hd. unfold frac. assert (D : 0 < IZR d) by (apply IZR_lt; exact Hd).
  assert (F : Zfloor (IZR m / IZR d) = (m / d)%Z) by (apply Zfloor_div; lia).
  rewrite F. pose proof (Z.div_mod m d ltac:(lia)) as E. rewrite E at 1. rewrite plus_IZR, mult_IZR. field. lra.
Qed.
Lemma repr_opp f x : repr f x -> repr (SFopp f) (- x).
Proof.
  intros (b & <- & F & <-). exists (Bopp b). split; [destruct b; reflexivity|]. split; [destruct b; exact F|apply B2R_Bopp].
Qed.
