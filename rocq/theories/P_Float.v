(* P_Float.v -- the residue on the default tower: the IEEE double computation
   R - L * floor (R / (L + 0=L)) is exact for |L|, |R| <= 2^52.
   Uses Flocq's correctness theorems for the double operations; the real numbers
   bring in the axioms of Coq's standard library for R. *)
From Coq Require Import ZArith Reals Lia Lra Psatz.
From Coq Require Import Floats.SpecFloat.
From Flocq Require Import Core.Core IEEE754.BinarySingleNaN.
Require Import Flocq.Prop.Relative.
From Verif Require Import Base M_Number S_Number.
Open Scope Z_scope.

Global Instance fp_gt_0 : Prec_gt_0 53. Proof. reflexivity. Qed.
Global Instance fp_lt_emax : Prec_lt_emax 53 1024. Proof. reflexivity. Qed.
Notation bf := (binary_float 53 1024).
Notation fx := (SpecFloat.fexp 53 1024).
Notation rnd := (round radix2 fx ZnearestE).

Lemma rne_equiv s m l : round_nearest_even m l = choice_mode mode_NE s m l.
Proof. case l; [reflexivity|intro c]. case c; [ | reflexivity..]. now simpl; unfold Round.cond_incr; case Z.even. Qed.
Lemma bra_equiv sx mx ex lx :
  SpecFloat.binary_round_aux 53 1024 sx mx ex lx = binary_round_aux 53 1024 mode_NE sx mx ex lx.
Proof.
  unfold SpecFloat.binary_round_aux, binary_round_aux.
  set (mrse' := shr_fexp _ _ _ _ _). case mrse'; intros mrs' e'; simpl. now rewrite (rne_equiv sx).
Qed.
Lemma br_equiv s m e : SpecFloat.binary_round 53 1024 s m e = binary_round 53 1024 mode_NE s m e.
Proof.
  unfold SpecFloat.binary_round, binary_round, shl_align_fexp.
  set (mez := shl_align _ _ _); case mez as [mz ez]. apply bra_equiv.
Qed.
Lemma bn_equiv m e sz : SpecFloat.binary_normalize 53 1024 m e sz = B2SF (binary_normalize 53 1024 _ _ mode_NE m e sz).
Proof.
  case m as [ | p | p]; [now simpl| |]; simpl; rewrite B2SF_SF2B; apply br_equiv.
Qed.
Lemma mul_sf (x y : bf) : f_mul (B2SF x) (B2SF y) = B2SF (Bmult mode_NE x y).
Proof.
  case x as [sx|sx| |sx mx ex Bx]; case y as [sy|sy| |sy my ey By]; [now trivial.. | ].
  simpl. rewrite B2SF_SF2B. apply bra_equiv.
Qed.
Lemma sub_sf (x y : bf) : f_sub (B2SF x) (B2SF y) = B2SF (Bminus mode_NE x y).
Proof.
  case x as [sx|sx| |sx mx ex Bx]; case y as [sy|sy| |sy my ey By];
    [now (trivial || simpl; case Bool.eqb).. | ].
  simpl. unfold Zminus. rewrite <- cond_Zopp_negb. apply bn_equiv.
Qed.
Lemma add_sf (x y : bf) : f_add (B2SF x) (B2SF y) = B2SF (Bplus mode_NE x y).
Proof.
  case x as [sx|sx| |sx mx ex Bx]; case y as [sy|sy| |sy my ey By];
    [now (trivial || simpl; case Bool.eqb).. | ]. apply bn_equiv.
Qed.
Lemma div_sf (x y : bf) : f_div (B2SF x) (B2SF y) = B2SF (Bdiv mode_NE x y).
Proof.
  case x as [sx|sx| |sx mx ex Bx]; case y as [sy|sy| |sy my ey By];
    [now (trivial || simpl; case Bool.eqb).. | ].
  simpl. rewrite B2SF_SF2B. set (melz := SFdiv_core_binary _ _ _ _ _ _).
  case melz as [[mz ez] lz]. apply bra_equiv.
Qed.

(* the double f is the real number x *)
Definition repr (f : spec_float) (x : R) : Prop := exists b : bf, B2SF b = f /\ is_finite b = true /\ B2R b = x.

Open Scope R_scope.
Lemma fmt_int z : (Z.abs z <= 2 ^ 53)%Z -> generic_format radix2 fx (IZR z).
Proof.
  intros H. destruct (Z.eq_dec (Z.abs z) (2 ^ 53)) as [E|E].
  - assert (Hz : z = (2 ^ 53)%Z \/ z = (- 2 ^ 53)%Z) by lia.
    assert (G : generic_format radix2 fx (IZR (2 ^ 53))).
    { change (IZR (2 ^ 53)) with (bpow radix2 53). apply generic_format_bpow. vm_compute. discriminate. }
    destruct Hz as [-> | ->]; [exact G|]. rewrite opp_IZR. apply generic_format_opp. exact G.
  - apply generic_format_FLT. exists (Float radix2 z 0).
    + unfold F2R. cbn [Fnum Fexp bpow]. ring.
    + cbn [Fnum]. change (Zpower radix2 53) with (2 ^ 53)%Z. lia.
    + cbn [Fexp]. vm_compute; discriminate.
Qed.
Lemma small_bpow x : Rabs x <= IZR (2 ^ 54) -> Rlt_bool (Rabs x) (bpow radix2 1024) = true.
Proof.
  intros H. apply Rlt_bool_true. apply Rle_lt_trans with (1 := H).
  change (IZR (2 ^ 54)) with (bpow radix2 54). apply bpow_lt. reflexivity.
Qed.
Lemma abs_IZR_le z k : (Z.abs z <= k)%Z -> Rabs (IZR z) <= IZR k.
Proof. intros H. rewrite <- abs_IZR. apply IZR_le. exact H. Qed.
Lemma rnd_int z : (Z.abs z <= 2 ^ 53)%Z -> rnd (IZR z) = IZR z.
Proof. intros H. apply round_generic; [apply valid_rnd_N|]. apply fmt_int. exact H. Qed.

Lemma of_int_repr z : (Z.abs z <= 2 ^ 53)%Z -> repr (f_of_int z) (IZR z).
Proof.
  intros H. unfold f_of_int. change fprec with 53%Z. change femax with 1024%Z. rewrite bn_equiv. eexists. split; [reflexivity|].
  pose proof (binary_normalize_correct 53 1024 _ _ mode_NE z 0 false) as C. cbv zeta in C.
  replace (F2R (Float radix2 z 0)) with (IZR z) in C by (unfold F2R; cbn [Fnum Fexp bpow]; ring).
  change (round_mode mode_NE) with ZnearestE in C. rewrite (rnd_int z H) in C. rewrite small_bpow in C by (apply abs_IZR_le; lia).
  destruct C as (C1 & C2 & _). split; assumption.
Qed.
(* the quotient, rounded, has the same floor *)
Lemma floor_round_div r l : (Z.abs r <= 2 ^ 52)%Z -> (Z.abs l <= 2 ^ 52)%Z -> (l <> 0)%Z -> (r mod l <> 0)%Z ->
  Zfloor (rnd (IZR r / IZR l)) = (r / l)%Z /\ Rabs (rnd (IZR r / IZR l)) <= IZR (2 ^ 53) /\ rnd (IZR r / IZR l) <> 0.
Proof.
  intros Hr Hl L0 Hm. set (x := IZR r / IZR l). set (n := (r / l)%Z).
  assert (Hl0 : IZR l <> 0) by (apply IZR_neq; exact L0).
  assert (Hl1 : 1 <= Rabs (IZR l)).
  { rewrite <- abs_IZR. apply (IZR_le 1). lia. }
  assert (Hdm : (r = l * n + r mod l)%Z) by (apply Z.div_mod; exact L0).
  assert (Hx : x = IZR n + IZR (r mod l) / IZR l).
  { unfold x. rewrite Hdm at 1. rewrite plus_IZR, mult_IZR. field. exact Hl0. }
  (* fractional part between 1/|l| and 1 - 1/|l| *)
  set (d := / Rabs (IZR l)).
  assert (Hd : 0 < d <= 1).
  { unfold d. split; [apply Rinv_0_lt_compat; lra|]. rewrite <- Rinv_1. apply Rinv_le; lra. }
  assert (Hfr : d <= IZR (r mod l) / IZR l <= 1 - d).
  { unfold d. destruct (Z.lt_trichotomy l 0) as [Hn|[E|Hp]]; [|lia|].
    - pose proof (Z.mod_neg_bound r l Hn) as B. rewrite Rabs_left by (apply (IZR_lt l 0); exact Hn).
      apply (IZR_lt l 0) in Hn. assert (B1 : IZR (r mod l) <= -1) by (apply (IZR_le _ (-1)); lia). assert (B2 : IZR l + 1 <= IZR (r mod l)) by (rewrite <- (plus_IZR l 1); apply IZR_le; lia).
      set (u := / - IZR l). assert (Hu : 0 < u) by (apply Rinv_0_lt_compat; lra). assert (Hlu : - IZR l * u = 1) by (apply Rinv_r; lra).
      replace (IZR (r mod l) / IZR l) with (- IZR (r mod l) * u) by (unfold u; field; lra). split; nra.
    - pose proof (Z.mod_pos_bound r l Hp) as B. rewrite Rabs_right by (apply Rle_ge; apply (IZR_le 0 l); lia).
      apply (IZR_lt 0 l) in Hp. assert (B1 : 1 <= IZR (r mod l)) by (apply (IZR_le 1); lia). assert (B2 : IZR (r mod l) <= IZR l - 1) by (rewrite <- (minus_IZR l 1); apply IZR_le; lia).
      set (u := / IZR l). assert (Hu : 0 < u) by (apply Rinv_0_lt_compat; lra). assert (Hlu : IZR l * u = 1) by (apply Rinv_r; lra).
      unfold Rdiv. fold u. split; nra. }
  (* |x| < 2^53 * d *)
  assert (Hxa : Rabs x <= IZR (2 ^ 52) * d).
  { unfold x, Rdiv, d. rewrite Rabs_mult, Rabs_inv. apply Rmult_le_compat_r; [fold d; lra|]. apply abs_IZR_le. exact Hr. }
  assert (Hx52 : Rabs x <= IZR (2 ^ 52)).
  { apply Rle_trans with (1 := Hxa). rewrite <- (Rmult_1_r (IZR (2 ^ 52))) at 2. apply Rmult_le_compat_l; [apply (IZR_le 0); lia|lra]. }
  assert (Hxmin : bpow radix2 (-1022) <= Rabs x).
  { apply Rle_trans with (bpow radix2 (-52)); [apply bpow_le; lia|]. 
    unfold x, Rdiv. rewrite Rabs_mult, Rabs_inv.
    assert (Hr1 : 1 <= Rabs (IZR r)). { rewrite <- abs_IZR. apply (IZR_le 1). assert (r <> 0)%Z; [|lia]. intros ->. apply Hm. apply Z.mod_0_l. exact L0. }
    apply Rle_trans with (1 * / Rabs (IZR l)).
    - rewrite Rmult_1_l. change (bpow radix2 (-52)) with (/ IZR (2 ^ 52)). apply Rinv_le; [lra|]. apply abs_IZR_le. exact Hl.
    - apply Rmult_le_compat_r; [fold d; lra|exact Hr1]. }
  assert (Hrel : Rabs (rnd x - x) <= / 2 * bpow radix2 (- 53 + 1) * Rabs x).
  { apply (relative_error_N_FLT radix2 (-1074) 53 ltac:(reflexivity) (fun z => negb (Z.even z)) x). exact Hxmin. }
  assert (Herr : Rabs (rnd x - x) < d).
  { apply Rle_lt_trans with (1 := Hrel).
      change (bpow radix2 (- 53 + 1)) with (/ IZR (2 ^ 52)).
      apply Rle_lt_trans with (/ 2 * / IZR (2 ^ 52) * (IZR (2 ^ 52) * d)).
      + apply Rmult_le_compat_l; [|exact Hxa]. assert (0 < / IZR (2 ^ 52)) by (apply Rinv_0_lt_compat; apply (IZR_lt 0); lia). lra.
      + assert (IZR (2 ^ 52) <> 0) by (apply IZR_neq; lia). field_simplify; lra. }
  assert (Hnz : rnd x <> 0).
  { intros E. rewrite E in Hrel. unfold Rminus in Hrel. rewrite Rplus_0_l, Rabs_Ropp in Hrel.
    assert (0 < Rabs x) by (eapply Rlt_le_trans; [|exact Hxmin]; apply bpow_gt_0).
    assert (bpow radix2 (- 53 + 1) <= 1) by (apply (bpow_le radix2 _ 0); lia).
    assert (/ 2 * bpow radix2 (- 53 + 1) * Rabs x <= / 2 * Rabs x) by (apply Rmult_le_compat_r; lra). lra. }
  apply Rabs_def2 in Herr. split; [|split; [|exact Hnz]].
  - apply Zfloor_imp. rewrite plus_IZR. lra.
  - apply Rabs_le. apply Rabs_le_inv in Hx52. change (IZR (2 ^ 53)) with (IZR (2 * 2 ^ 52)). rewrite mult_IZR. assert (1 <= IZR (2 ^ 52)) by (apply (IZR_le 1); lia). lra.
Qed.
Lemma div_repr a b r l : repr a (IZR r) -> repr b (IZR l) ->
  (Z.abs r <= 2 ^ 52)%Z -> (Z.abs l <= 2 ^ 52)%Z -> (l <> 0)%Z -> (r mod l <> 0)%Z ->
  exists x, repr (f_div a b) x /\ Zfloor x = (r / l)%Z.
Proof.
  intros (ba & <- & Fa & Ra) (bb & <- & Fb & Rb) Hr Hl L0 Hm. exists (rnd (IZR r / IZR l)).
  destruct (floor_round_div r l Hr Hl L0 Hm) as (H1 & H2 & _). split; [|exact H1]. exists (Bdiv mode_NE ba bb). split; [symmetry; apply div_sf|].
  pose proof (Bdiv_correct 53 1024 _ _ mode_NE ba bb) as C. rewrite Ra, Rb in C. specialize (C (IZR_neq _ _ L0)).
  change (round_mode mode_NE) with ZnearestE in C. rewrite small_bpow in C.
  2:{ apply Rle_trans with (1 := H2). apply IZR_le. lia. }
  destruct C as (C1 & C2 & _). rewrite Fa in C2. split; assumption.
Qed.
Lemma floor_repr f x : repr f x -> (Z.abs (Zfloor x) <= 2 ^ 53)%Z -> repr (f_floor f) (IZR (Zfloor x)).
Proof.
  intros (b & <- & Fb & <-) H. destruct b as [s|s| |s m e Hb]; try discriminate.
  - exists (B754_zero s). split; [reflexivity|]. split; [reflexivity|]. cbn [B2R]. rewrite Zfloor_IZR. reflexivity.
  - cbn [B2SF f_floor B2R] in *. destruct (Z.leb_spec 0 e) as [He|He].
    + exists (B754_finite s m e Hb). split; [reflexivity|]. split; [reflexivity|]. cbn [B2R].
      assert (E : F2R (Float radix2 (cond_Zopp s (Zpos m)) e) = IZR (cond_Zopp s (Zpos m) * 2 ^ e)).
      { unfold F2R. cbn [Fnum Fexp]. rewrite mult_IZR. f_equal. rewrite <- IZR_Zpower by exact He. reflexivity. }
      rewrite E, Zfloor_IZR. reflexivity.
    + change fprec with 53%Z. change femax with 1024%Z.
      assert (E : Zfloor (F2R (Float radix2 (cond_Zopp s (Zpos m)) e)) = (cond_Zopp s (Zpos m) / 2 ^ (- e))%Z).
      { unfold F2R. cbn [Fnum Fexp]. replace (bpow radix2 e) with (/ IZR (2 ^ (- e))).
        - apply (Zfloor_div (cond_Zopp s (Zpos m))). pose proof (Z.pow_pos_nonneg 2 (- e)). lia.
        - rewrite <- (Z.opp_involutive e) at 2. rewrite bpow_opp. f_equal. apply (IZR_Zpower radix2). lia. }
      rewrite E in *. change (if s then Z.neg m else Z.pos m) with (cond_Zopp s (Zpos m)).
      apply of_int_repr. exact H.
Qed.
Lemma mul_repr a b i j : repr a (IZR i) -> repr b (IZR j) -> (Z.abs (i * j) <= 2 ^ 53)%Z -> repr (f_mul a b) (IZR (i * j)).
Proof.
  intros (ba & <- & Fa & Ra) (bb & <- & Fb & Rb) H. exists (Bmult mode_NE ba bb). split; [symmetry; apply mul_sf|].
  pose proof (Bmult_correct 53 1024 _ _ mode_NE ba bb) as C. rewrite Ra, Rb, <- mult_IZR in C.
  change (round_mode mode_NE) with ZnearestE in C. rewrite (rnd_int _ H), small_bpow in C by (apply abs_IZR_le; lia).
  destruct C as (C1 & C2 & _). rewrite Fa, Fb in C2. split; assumption.
Qed.
Lemma sub_repr a b i j : repr a (IZR i) -> repr b (IZR j) -> (Z.abs (i - j) <= 2 ^ 53)%Z -> repr (f_sub a b) (IZR (i - j)).
Proof.
  intros (ba & <- & Fa & Ra) (bb & <- & Fb & Rb) H. exists (Bminus mode_NE ba bb). split; [symmetry; apply sub_sf|].
  pose proof (Bminus_correct 53 1024 _ _ mode_NE ba bb Fa Fb) as C. rewrite Ra, Rb, <- minus_IZR in C.
  change (round_mode mode_NE) with ZnearestE in C. rewrite (rnd_int _ H), small_bpow in C by (apply abs_IZR_le; lia).
  destruct C as (C1 & C2 & _). split; assumption.
Qed.
Lemma add_repr a b i j : repr a (IZR i) -> repr b (IZR j) -> (Z.abs (i + j) <= 2 ^ 53)%Z -> repr (f_add a b) (IZR (i + j)).
Proof.
  intros (ba & <- & Fa & Ra) (bb & <- & Fb & Rb) H. exists (Bplus mode_NE ba bb). split; [symmetry; apply add_sf|].
  pose proof (Bplus_correct 53 1024 _ _ mode_NE ba bb Fa Fb) as C. rewrite Ra, Rb, <- plus_IZR in C.
  change (round_mode mode_NE) with ZnearestE in C. rewrite (rnd_int _ H), small_bpow in C by (apply abs_IZR_le; lia).
  destruct C as (C1 & C2 & _). split; assumption.
Qed.
Lemma repr_int_eq f z : repr f (IZR z) -> (z <> 0)%Z -> (Z.abs z <= 2 ^ 53)%Z -> f = f_of_int z.
Proof.
  intros (b & <- & Fb & Rb) H0 H. destruct (of_int_repr z H) as (c & <- & Fc & Rc). f_equal.
  assert (N : forall x : bf, is_finite x = true -> B2R x = IZR z -> is_finite_strict x = true).
  { intros [s|s| |s m e Hx] F E; try discriminate; [|reflexivity]. exfalso. cbn in E. apply H0. apply eq_IZR. symmetry. exact E. }
  apply B2R_inj; [apply N; assumption|apply N; assumption|congruence].
Qed.
Open Scope Z_scope.
(* the five double operations of the residue *)
Lemma residue_double r l : Z.abs r <= 2 ^ 52 -> Z.abs l <= 2 ^ 52 -> l <> 0 -> r mod l <> 0 ->
  (exists s m e, f_div (f_of_int r) (f_of_int l) = S754_finite s m e) /\
  f_sub (f_of_int r) (f_mul (f_of_int l) (f_floor (f_div (f_of_int r) (f_of_int l)))) = f_of_int (r mod l).
Proof.
  intros Hr Hl L0 Hm.
  assert (Rr : repr (f_of_int r) (IZR r)) by (apply of_int_repr; lia).
  assert (Rl : repr (f_of_int l) (IZR l)) by (apply of_int_repr; lia).
  destruct (div_repr _ _ r l Rr Rl Hr Hl L0 Hm) as (x & Rx & Hx).
  assert (Hq : Z.abs (r / l) <= Z.abs r + 1).
  { pose proof (Z.div_mod r l L0) as D. destruct (Z.lt_trichotomy l 0) as [Hn|[E|Hp]]; [|lia|].
    - pose proof (Z.mod_neg_bound r l Hn). nia.
    - pose proof (Z.mod_pos_bound r l Hp). nia. }
  assert (Hlq : l * (r / l) = r - r mod l) by (pose proof (Z.div_mod r l L0); lia).
  assert (Hmb : Z.abs (r mod l) <= Z.abs l).
  { destruct (Z.lt_trichotomy l 0) as [Hn|[E|Hp]]; [|lia|].
    - pose proof (Z.mod_neg_bound r l Hn). lia.
    - pose proof (Z.mod_pos_bound r l Hp). lia. }
  split.
  - destruct Rx as (b & Hb & Fb & Eb). rewrite <- Hb. destruct b as [s|s| |s m e Hb']; try discriminate; [|cbn; eauto].
    exfalso. pose proof (floor_round_div r l Hr Hl L0 Hm) as (_ & Hbd & Hnz).
    destruct Rr as (br & Er & Fr & Rr), Rl as (bl & El & Fl & Rl).
    assert (Hz : 0%R = rnd (IZR r / IZR l)).
    { pose proof (Bdiv_correct 53 1024 _ _ mode_NE br bl) as C. rewrite Rr, Rl in C. specialize (C (IZR_neq _ _ L0)).
      change (round_mode mode_NE) with ZnearestE in C. rewrite small_bpow in C.
      2:{ eapply Rle_trans; [exact Hbd|]. apply IZR_le. lia. }
      destruct C as (C1 & _). rewrite <- C1. clear C1.
      assert (E : B2SF (Bdiv mode_NE br bl) = S754_zero s) by (rewrite <- div_sf, Er, El; symmetry; exact Hb).
      destruct (Bdiv mode_NE br bl); try discriminate. reflexivity. }
    exact (Hnz (eq_sym Hz)).
  - apply repr_int_eq; [|exact Hm|lia].
    assert (Rf : repr (f_floor (f_div (f_of_int r) (f_of_int l))) (IZR (r / l))) by (rewrite <- Hx; apply floor_repr; [exact Rx|lia]).
    replace (r mod l) with (r - l * (r / l)) by lia.
    apply sub_repr; [exact Rr| |lia]. apply mul_repr; [exact Rl|exact Rf|lia].
Qed.
