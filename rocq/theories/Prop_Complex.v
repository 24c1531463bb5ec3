(* Prop_Complex.v -- C149 to C152: complex numbers. *)
From Coq Require Import ZArith Reals List Bool Lia Lra Psatz Floats.SpecFloat.
Import ListNotations.
From Flocq Require Import Core.Core IEEE754.BinarySingleNaN.
From Verif Require Import Base M_Number M_Complex P_Float S_Complex P_Complex P_Complex2.
Open Scope Z_scope.

(* ------------------------------------------------------------------ C149 *)
(* [same]: the same number, zeros may differ in sign.  It is what = compares. *)
Theorem C149_equal : forall z w, c_eq z w = true <-> same z w /\ re z <> S754_nan /\ im z <> S754_nan.
Proof.
  assert (E : forall x y, SFeqb x y = true <-> sameF x y /\ x <> S754_nan).
  { intros x y. unfold SFeqb, sameF. split.
    - destruct x as [s|s| |s m e], y as [t|t| |t n g]; intros H; try (cbn in H; discriminate H); try (destruct s; cbn in H; discriminate H); try (destruct t; cbn in H; discriminate H).
      + split; [right; exists s, t; split; reflexivity|discriminate].
      + split; [left|discriminate]. destruct s, t; cbn in H; try discriminate H; reflexivity.
      + split; [left|discriminate]. destruct s, t; cbn in H; try discriminate H.
        * destruct (Z.compare_spec e g) as [->|K|K]; try discriminate H. f_equal. change (CompOpp (Pos.compare_cont Eq m n)) with (CompOpp (Pos.compare m n)) in H.
          destruct (Pos.compare_spec m n) as [->|K|K]; cbn in H; [reflexivity|discriminate H|discriminate H].
        * destruct (Z.compare_spec e g) as [->|K|K]; try discriminate H. f_equal. change (Pos.compare_cont Eq m n) with (Pos.compare m n) in H.
          destruct (Pos.compare_spec m n) as [->|K|K]; cbn in H; [reflexivity|discriminate H|discriminate H].
    - intros [[->|(s & t & -> & ->)] N]; [|reflexivity]. destruct y as [t|t| |t n g]; cbn; try reflexivity; try congruence; destruct t; try reflexivity;
        rewrite Z.compare_refl; change (Pos.compare_cont Eq n n) with (Pos.compare n n); rewrite Pos.compare_refl; reflexivity. }
  intros z w. unfold c_eq, same. rewrite andb_true_iff, !E. tauto.
Qed.
Print Assumptions C149_equal.
Theorem C149_involutions : forall z, c_conj (c_conj z) = z /\ c_neg (c_neg z) = z.
Proof. intros [a b]. unfold c_conj, c_neg. cbn [re im]. rewrite !opp_opp. split; reflexivity. Qed.
Print Assumptions C149_involutions.
Theorem C149_commutative : forall z w, c_add z w = c_add w z /\ c_mul z w = c_mul w z /\ c_sub z w = c_add z (c_neg w).
Proof.
  intros [a b] [c d]. unfold c_add, c_mul, c_sub, c_neg. cbn [re im]. rewrite !f_sub_add. split; [|split; [|reflexivity]].
  - f_equal; apply f_add_comm.
  - rewrite (f_mul_comm c a), (f_mul_comm d b), (f_mul_comm c b), (f_mul_comm d a). f_equal. apply f_add_comm.
Qed.
Print Assumptions C149_commutative.
Theorem C149_conjugate : forall z w,
  same (c_conj (c_add z w)) (c_add (c_conj z) (c_conj w)) /\ same (c_conj (c_mul z w)) (c_mul (c_conj z) (c_conj w)).
Proof.
  intros [a b] [c d]. unfold c_add, c_mul, c_conj, same. cbn [re im]. split; split.
  - apply sameF_refl.
  - apply sameF_sym, f_add_opp.
  - rewrite f_mul_opp_l, f_mul_opp_r, opp_opp. apply sameF_refl.
  - rewrite f_mul_opp_r, f_mul_opp_l. apply sameF_sym, f_add_opp.
Qed.
Print Assumptions C149_conjugate.
Theorem C149_negative : forall z w,
  same (c_neg (c_add z w)) (c_add (c_neg z) (c_neg w)) /\ same (c_neg (c_mul z w)) (c_mul (c_neg z) w).
Proof.
  intros [a b] [c d]. unfold c_add, c_mul, c_neg, same. cbn [re im]. rewrite !f_mul_opp_l, !f_sub_add. split; split; apply sameF_sym, f_add_opp.
Qed.
Print Assumptions C149_negative.
(* the complex numbers extend the real ones *)
Theorem C149_reals_partial : forall x y, finiteF x -> finiteF y ->
  same (c_add (f2c x) (f2c y)) (f2c (f_add x y)) /\ same (c_sub (f2c x) (f2c y)) (f2c (f_sub x y)) /\
  same (c_mul (f2c x) (f2c y)) (f2c (f_mul x y)) /\ same (c_neg (f2c x)) (f2c (SFopp x)) /\ same (c_conj (f2c x)) (f2c x).
Proof.
  intros x y Hx Hy. apply finite_no_inf in Hx. apply finite_no_inf in Hy. unfold c_add, c_sub, c_mul, c_neg, c_conj, f2c, same. cbn [re im].
  repeat split; try apply sameF_refl; try (right; cbn; eauto; fail).
  - apply sub_zero_r.
  - unfold f0. destruct (mul_zero_r x false Hx) as [s ->]. destruct (mul_zero_l y false Hy) as [t ->]. destruct s, t; right; cbn; do 2 eexists; split; reflexivity.
  - right; cbn; do 2 eexists; split; reflexivity.
  - right; cbn; do 2 eexists; split; reflexivity.
Qed.
Print Assumptions C149_reals_partial.
(* a real number times a complex one, a real number plus a complex one *)
Theorem C149_mixed : forall x z, finiteF x -> finite z ->
  same (c_add (f2c x) z) (mkC (f_add x (re z)) (im z)) /\ same (c_mul (f2c x) z) (mkC (f_mul x (re z)) (f_mul x (im z))).
Proof.
  intros x [a b] Hx [Ha Hb]. apply finite_no_inf in Hx. apply finite_no_inf in Ha. apply finite_no_inf in Hb. unfold c_add, c_mul, f2c, same. cbn [re im] in *.
  split; split; try apply sameF_refl.
  - apply add_zero_l.
  - destruct (mul_zero_l b false Hb) as [t E]. unfold f0. rewrite E. apply sub_zero_r.
  - destruct (mul_zero_l a false Ha) as [t E]. unfold f0. rewrite E. apply add_zero_r.
Qed.
Print Assumptions C149_mixed.
(* What + - × give for numbers of the tower: two complex numbers, or one complex and one Int or Float *)
Theorem C149_tower : forall T (tM : methods T) abs_ div_ c2t (z w : cplx) (x : spec_float) (n : Z),
  let M := dM (cM abs_ div_) tM in let t := dT f2c c2t in
  let C (c : cplx) : sval (dnum cplx T) := VNum (NT (DC c)) in let F f : sval (dnum cplx T) := VNum (NT (DF f)) in let I n : sval (dnum cplx T) := VNum (NI n) in
  (arith2 M t (add2 M) (C z) (C w) = Ok (C (c_add z w)) /\ arith2 M t (sub2 M) (C z) (C w) = Ok (C (c_sub z w)) /\ arith2 M t (mul2 M) (C z) (C w) = Ok (C (c_mul z w))) /\
  (arith2 M t (add2 M) (F x) (C w) = Ok (C (c_add (f2c x) w)) /\ arith2 M t (add2 M) (C z) (F x) = Ok (C (c_add z (f2c x))) /\
   arith2 M t (sub2 M) (F x) (C w) = Ok (C (c_sub (f2c x) w)) /\ arith2 M t (sub2 M) (C z) (F x) = Ok (C (c_sub z (f2c x))) /\
   arith2 M t (mul2 M) (F x) (C w) = Ok (C (c_mul (f2c x) w)) /\ arith2 M t (mul2 M) (C z) (F x) = Ok (C (c_mul z (f2c x)))) /\
  (arith2 M t (add2 M) (I n) (C w) = Ok (C (c_add (f2c (f_of_int n)) w)) /\ arith2 M t (mul2 M) (I n) (C w) = Ok (C (c_mul (f2c (f_of_int n)) w))) /\
  arith1 M t (sub M) (C z) = Ok (C (c_neg z)).
Proof. intros. repeat split; reflexivity. Qed.
Print Assumptions C149_tower.
(* Finding: an infinite real number is not the complex number with that real part: ∞×2J0 has the imaginary part NaN. *)
Theorem C149_infinite_refuted : let inf := S754_infinity false in
  c_mul (f2c inf) (f2c (f_of_int 2)) = mkC inf S754_nan /\ f_mul inf (f_of_int 2) = inf.
Proof. split; reflexivity. Qed.
Example C149_example : finiteF (f_of_int 3) /\ c_mul (mkC (f_of_int 1) (f_of_int 2)) (mkC (f_of_int 3) (f_of_int (-4))) = mkC (f_of_int 11) (f_of_int 2).
Proof. split; [exists (IZR 3); apply of_int_repr; lia|reflexivity]. Qed.

(* ------------------------------------------------------------------ C150 *)
Open Scope R_scope.
(* both parts of ⌊z are integers next to those of z, and not both are raised *)
Theorem C150_next_to : forall a b x y, repr a x -> repr b y ->
  exists fi fj i j, c_floor (mkC a b) = Some (mkC fi fj) /\ repr fi (IZR i) /\ repr fj (IZR j) /\
    (i = Zfloor x \/ i = (Zfloor x + 1)%Z) /\ (j = Zfloor y \/ j = (Zfloor y + 1)%Z) /\ ~ (i = (Zfloor x + 1)%Z /\ j = (Zfloor y + 1)%Z).
Proof.
  intros a b x y Ha Hb. destruct (c_floor_repr a b x y Ha Hb) as (fi & fj & i & j & E & Ri & Rj & H). exists fi, fj, i, j.
  split; [exact E|]. split; [exact Ri|]. split; [exact Rj|]. destruct H as [(_ & -> & ->)|[(_ & _ & -> & ->)|(_ & _ & -> & ->)]]; repeat split; auto; lia.
Qed.
Print Assumptions C150_next_to.
(* it is the floor of APL2 when the fractions need no rounding, and then z is less than 1 away from it *)
Theorem C150_exact_partial : forall a b x y, repr a x -> repr b y ->
  double (frac x) -> double (frac y) -> double (frac x + frac y) ->
  exists fi fj i j, c_floor (mkC a b) = Some (mkC fi fj) /\ repr fi (IZR i) /\ repr fj (IZR j) /\
    complex_floor x y i j /\ (x - IZR i) * (x - IZR i) + (y - IZR j) * (y - IZR j) < 1.
Proof.
  intros a b x y Ha Hb D1 D2 D3. destruct (c_floor_repr a b x y Ha Hb) as (fi & fj & i & j & E & Ri & Rj & H). exists fi, fj, i, j.
  split; [exact E|]. split; [exact Ri|]. split; [exact Rj|]. cbv zeta in H. rewrite !rnd_double in H by (rewrite ?rnd_double; assumption).
  pose proof (frac_range x) as Fx. pose proof (frac_range y) as Fy.
  assert (Ex : x = IZR (Zfloor x) + frac x) by (unfold frac; lra). assert (Ey : y = IZR (Zfloor y) + frac y) by (unfold frac; lra).
  set (u := frac x) in *. set (v := frac y) in *.
  destruct H as [(H1 & -> & ->)|[(H1 & H2 & -> & ->)|(H1 & H2 & -> & ->)]].
  - split; [unfold complex_floor; fold u v; repeat split; auto; lra|]. replace (x - IZR (Zfloor x)) with u by lra. replace (y - IZR (Zfloor y)) with v by lra. nra.
  - split; [unfold complex_floor; fold u v; repeat split; auto; lra|]. rewrite plus_IZR. replace (x - (IZR (Zfloor x) + 1)) with (u - 1) by lra. replace (y - IZR (Zfloor y)) with v by lra. nra.
  - split; [unfold complex_floor; fold u v; repeat split; auto; lra|]. rewrite plus_IZR. replace (y - (IZR (Zfloor y) + 1)) with (v - 1) by lra. replace (x - IZR (Zfloor x)) with u by lra. nra.
Qed.
Print Assumptions C150_exact_partial.

(* parts that are whole multiples of 1/2^k, k up to 52, such as quarters: all is exact *)
Theorem C150_grid : forall k a b m n, (0 <= k <= 52)%Z -> repr a (IZR m / IZR (2 ^ k)) -> repr b (IZR n / IZR (2 ^ k)) ->
  exists fi fj i j, c_floor (mkC a b) = Some (mkC fi fj) /\ repr fi (IZR i) /\ repr fj (IZR j) /\
    complex_floor (IZR m / IZR (2 ^ k)) (IZR n / IZR (2 ^ k)) i j.
Proof.
  intros k a b m n Hk Ha Hb.
  assert (P : (0 < 2 ^ k <= 2 ^ 52)%Z) by (split; [apply Z.pow_pos_nonneg; lia|apply Z.pow_le_mono_r; lia]).
  pose proof (Z.mod_pos_bound m (2 ^ k) ltac:(lia)). pose proof (Z.mod_pos_bound n (2 ^ k) ltac:(lia)).
  destruct (C150_exact_partial a b _ _ Ha Hb) as (fi & fj & i & j & E & Ri & Rj & F & _).
  - rewrite frac_div by lia. apply double_div; lia.
  - rewrite frac_div by lia. apply double_div; lia.
  - rewrite !frac_div by lia. replace (IZR (m mod 2 ^ k) / IZR (2 ^ k) + IZR (n mod 2 ^ k) / IZR (2 ^ k)) with (IZR (m mod 2 ^ k + n mod 2 ^ k) / IZR (2 ^ k)).
    + apply double_div; lia.
    + rewrite plus_IZR. field. apply IZR_neq. lia.
  - exists fi, fj, i, j. auto.
Qed.
Print Assumptions C150_grid.
(* the Gaussian integers are fixed *)
Theorem C150_gaussian : forall a b i j, repr a (IZR i) -> repr b (IZR j) ->
  exists fi fj, c_floor (mkC a b) = Some (mkC fi fj) /\ repr fi (IZR i) /\ repr fj (IZR j).
Proof.
  intros a b i j Ha Hb. destruct (c_floor_repr a b _ _ Ha Hb) as (fi & fj & i' & j' & E & Ri & Rj & H). exists fi, fj. split; [exact E|].
  assert (F : forall z, frac (IZR z) = 0) by (intros z; unfold frac; rewrite Zfloor_IZR; ring).
  assert (R0 : rnd 0 = 0) by (apply (rnd_int 0); lia).
  cbv zeta in H. rewrite !F, !Zfloor_IZR, !R0, Rplus_0_r, R0 in H.
  destruct H as [(_ & -> & ->)|[(H & _)|(H & _)]]; [auto|lra|lra].
Qed.
Print Assumptions C150_gaussian.
(* the method fails exactly for NaN and infinities *)
Theorem C150_fails : forall a b, SpecFloat.valid_binary 53 1024 a = true -> SpecFloat.valid_binary 53 1024 b = true ->
  (c_floor (mkC a b) = None <-> ~ finite (mkC a b)).
Proof.
  intros a b Va Vb. split.
  - intros E [[x Hx] [y Hy]]. destruct (c_floor_repr a b x y Hx Hy) as (fi & fj & i & j & E' & _). congruence.
  - intros N. assert (K : forall x, SpecFloat.valid_binary 53 1024 x = true -> finiteF x \/ (x = S754_nan \/ exists s, x = S754_infinity s)).
    { intros [s|s| |s m e] V; [left|right; right; eauto|right; left; reflexivity|left].
      - exists 0, (B754_zero s). auto.
      - exists (B2R (B754_finite s m e V : bf)), (B754_finite s m e V). auto. }
    assert (D : f_add (f_sub a (f_floor a)) (f_sub b (f_floor b)) = S754_nan).
    { destruct (K a Va) as [Fa|Fa]; [|rewrite (not_finite_cases a Fa); apply nan_add_l].
      destruct (K b Vb) as [Fb|Fb]; [|rewrite (not_finite_cases b Fb); apply nan_add_r]. exfalso. apply N. split; assumption. }
    unfold c_floor. cbn [re im]. rewrite D. reflexivity.
Qed.
Print Assumptions C150_fails.
(* ⌈z is the negative of ⌊-z: its parts are the ceilings of those of z, at most one of them lowered by 1 *)
Theorem C150_ceil : forall a b x y, repr a x -> repr b y ->
  exists fi fj i j, c_ceil (mkC a b) = Some (mkC fi fj) /\ repr fi (IZR i) /\ repr fj (IZR j) /\
    (i = Zceil x \/ i = (Zceil x - 1)%Z) /\ (j = Zceil y \/ j = (Zceil y - 1)%Z) /\ ~ (i = (Zceil x - 1)%Z /\ j = (Zceil y - 1)%Z).
Proof.
  intros a b x y Ha Hb. apply repr_opp in Ha, Hb. destruct (C150_next_to _ _ _ _ Ha Hb) as (fi & fj & i & j & E & Ri & Rj & Hi & Hj & N).
  exists (SFopp fi), (SFopp fj), (- i)%Z, (- j)%Z. unfold c_ceil, c_neg at 2. cbn [re im]. rewrite E. split; [reflexivity|].
  apply repr_opp in Ri, Rj. rewrite <- opp_IZR in Ri, Rj. split; [exact Ri|]. split; [exact Rj|]. unfold Zceil. lia.
Qed.
Print Assumptions C150_ceil.
(* what ⌊ of the tower gives *)
Theorem C150_tower : forall T (tM : methods T) abs_ div_ c2t (z w : cplx), c_floor z = Some w ->
  let M := dM (cM abs_ div_) tM in
  arith1 M (dT f2c c2t) (floor M) (VNum (NT (DC z))) = Ok (VNum (NT (DC w))).
Proof. intros T tM abs_ div_ c2t z w E M. unfold arith1, floor. cbn. unfold inj, cM. cbn. rewrite E. reflexivity. Qed.
Print Assumptions C150_tower.
(* Finding: the fraction of a negative number close to 0 is rounded to 1, so ⌊¯1E¯20J0 is 0 although
   ⌊¯1E¯20 is ¯1: the floor of a complex number can be above it and a full 1 is not kept away. *)
Theorem C150_rounding_refuted :
  let tiny := S754_finite true 6646139978924579 (-119) in   (* ¯1E¯20 *)
  c_floor (f2c tiny) = Some (mkC (S754_zero false) f0) /\ f_floor tiny = f_of_int (-1).
Proof. split; vm_compute; reflexivity. Qed.
Print Assumptions C150_rounding_refuted.
Example C150_example : (* ⌊2.75J1.5 and ⌊2.25J1.75 *)
  let q n := f_div (f_of_int n) (f_of_int 4) in
  repr (q 11%Z) (IZR 11 / IZR (2 ^ 2)) /\
  c_floor (mkC (q 11%Z) (q 6%Z)) = Some (mkC (f_of_int 3) (f_of_int 1)) /\ c_floor (mkC (q 9%Z) (q 7%Z)) = Some (mkC (f_of_int 2) (f_of_int 2)).
Proof.
  split; [|split; vm_compute; reflexivity].
  exists (@B754_finite 53 1024 false (11 * 2 ^ 49) (-51) eq_refl). split; [reflexivity|]. split; [reflexivity|].
  unfold B2R, F2R. cbn [Fnum Fexp cond_Zopp bpow]. change (Z.pow_pos radix2 51) with (2 ^ 51)%Z. change (Z.pos (11 * 2 ^ 49)) with (11 * 2 ^ 49)%Z.
  rewrite mult_IZR. change (IZR (2 ^ 51)) with (IZR (2 ^ 49 * 2 ^ 2)). rewrite mult_IZR. field. split; apply IZR_neq; lia.
Qed.
Open Scope Z_scope.

(* ------------------------------------------------------------------ C151 *)
Section Circle.
  Context (T : Type) (tM : methods T) (abs_ : cplx -> outcome (option (sval cplx))) (div_ : cplx -> cplx -> outcome (option (sval cplx)))
    (c2t : cplx -> option T) (hyp phase : cplx -> spec_float)
    (otherf : spec_float -> spec_float -> option spec_float) (otherc : cplx -> cplx -> option part).
  (* n○z, the left argument an Int as it is written *)
  Definition circle (n : Z) (v : sval (dnum cplx T)) : outcome (sval (dnum cplx T)) :=
    arith2 (dM (cM abs_ div_) tM) (dT f2c c2t) (circular hyp phase otherf otherc) (VNum (NI n)) v.
  Definition vC (z : cplx) : sval (dnum cplx T) := VNum (NT (DC z)).
  Definition vF (x : spec_float) : sval (dnum cplx T) := VNum (NT (DF x)).
  Definition vI (n : Z) : sval (dnum cplx T) := VNum (NI n).
  (* the parts of a complex number, and what puts it together again *)
  Theorem C151_parts_partial : forall z,
    circle 9 (vC z) = Ok (vF (re z)) /\ circle 11 (vC z) = Ok (vF (im z)) /\ circle 10 (vC z) = Ok (vF (hyp z)) /\
    circle (-9) (vC z) = Ok (vC z) /\ circle (-10) (vC z) = Ok (vC (mkC (re z) (SFopp (im z)))).
  Proof. intros z. repeat split; reflexivity. Qed.
  Theorem C151_times_i : forall z, finite z ->
    exists w, circle (-11) (vC z) = Ok (vC w) /\ same w (mkC (SFopp (im z)) (re z)).
  Proof.
    intros [a b] [Fa Fb]. cbn [re im] in *. eexists. split; [reflexivity|]. unfold c_mul, c_i, same. cbn [re im].
    pose proof (finite_no_inf a Fa) as Na. pose proof (finite_no_inf b Fb) as Nb. rewrite !mul_one_r by assumption. unfold f0. split.
    - destruct (mul_zero_r a false Na) as [t ->]. rewrite f_sub_add. apply add_zero_l.
    - destruct (mul_zero_r b false Nb) as [t ->]. apply add_zero_r.
  Qed.
  Theorem C151_together : forall z, finite z ->
    exists x y iy w, circle 9 (vC z) = Ok x /\ circle 11 (vC z) = Ok y /\ circle (-11) y = Ok iy /\
      arith2 (dM (cM abs_ div_) tM) (dT f2c c2t) (add2 (dM (cM abs_ div_) tM)) x iy = Ok (vC w) /\ same w z.
  Proof.
    intros [a b] [Fa Fb]. cbn [re im] in *. exists (vF a), (vF b). do 2 eexists.
    split; [reflexivity|]. split; [reflexivity|]. split; [reflexivity|]. split; [reflexivity|].
    pose proof (finite_no_inf a Fa) as Na. pose proof (finite_no_inf b Fb) as Nb. unfold c_add, c_mul, c_i, f2c, same. cbn [re im]. rewrite (mul_one_r b Fb).
    unfold f0. split.
    - destruct (mul_zero_r b false Nb) as [t ->]. destruct t; apply add_zero_r.
    - eapply sameF_trans; [apply add_zero_l|]. apply add_zero_r.
  Qed.
  (* ... of a real number: its real part and magnitude; ¯11 leaves the real numbers *)
  Theorem C151_real : forall x,
    circle 9 (vF x) = Ok (vF x) /\ circle (-9) (vF x) = Ok (vF x) /\ circle (-10) (vF x) = Ok (vF x) /\ circle 10 (vF x) = Ok (vF (SFabs x)) /\
    circle (-11) (vF x) = Ok (vC (c_mul (f2c x) c_i)).
  Proof. intros x. repeat split; reflexivity. Qed.
  Theorem C151_int : forall n,
    circle 9 (vI n) = circle 9 (vF (f_of_int n)) /\ circle 10 (vI n) = circle 10 (vF (f_of_int n)) /\ circle 11 (vI n) = circle 11 (vF (f_of_int n)) /\
    circle (-11) (vI n) = circle (-11) (vF (f_of_int n)).
  Proof. intros n. repeat split; reflexivity. Qed.
  (* Finding (float.go:228-229): the imaginary part of a real number is the number itself *)
  Theorem C151_imaginary_refuted : forall x n,
    circle 11 (vF x) = Ok (vF x) /\ circle 11 (vI n) = Ok (vF (f_of_int n)) /\ circle 11 (vC (f2c x)) = Ok (vF f0).
  Proof. intros x n. repeat split; reflexivity. Qed.
  (* Finding (float.go:232-238): the phase of a real number is its sign; that of the same number as a
     complex one is the angle, 0 or pi *)
  Theorem C151_phase_refuted : forall x,
    circle 12 (vF x) = Ok (vF (if SFeqb x f0 then f0 else if SFltb x f0 then f_of_int (-1) else f1)) /\ circle 12 (vC (f2c x)) = Ok (vF (phase (f2c x))).
  Proof. intros x. split; reflexivity. Qed.
End Circle.
Print Assumptions C151_parts_partial. Print Assumptions C151_times_i. Print Assumptions C151_together.
Print Assumptions C151_real. Print Assumptions C151_int. Print Assumptions C151_imaginary_refuted. Print Assumptions C151_phase_refuted.
Example C151_example : finite (mkC (f_of_int 3) (f_of_int (-4))) /\ c_mul (mkC (f_of_int 3) (f_of_int (-4))) c_i = mkC (f_of_int 4) (f_of_int 3).
Proof. split; [split; eexists; apply of_int_repr; lia|vm_compute; reflexivity]. Qed.

(* ------------------------------------------------------------------ C152 *)
Section Literal.
  Context (strconv : text -> option spec_float) (rect : spec_float -> spec_float -> cplx).
  Let number := ParseFloat strconv.
  Let literal := ParseComplex strconv rect.
  (* XJY (or XjY) is a complex number exactly when X and Y are numbers, and has them as its parts *)
  Theorem C152_cartesian : forall x y z, ~ In r_a (x ++ y) -> ~ In r_J x ->
    (literal (x ++ r_J :: y) = Some z <-> number x = Some (re z) /\ number y = Some (im z)).
  Proof.
    intros x y z Na NJ. unfold literal, ParseComplex. rewrite split_none; [|intros I; apply in_app_iff in I as [I|[I|I]]; [apply Na; apply in_app_iff; auto|discriminate I|apply Na; apply in_app_iff; auto]].
    rewrite split_some by exact NJ. unfold number. destruct z as [a b]. cbn [re im].
    destruct (ParseFloat strconv x) as [f|]; [|split; [discriminate|intros [H _]; discriminate H]].
    destruct (ParseFloat strconv y) as [g|]; [|split; [discriminate|intros [_ H]; discriminate H]].
    split; [intros [= <- <-]; auto|intros [[= ->] [= ->]]; reflexivity].
  Qed.
  Theorem C152_cartesian_j : forall x y z, ~ In r_a (x ++ y) -> ~ In r_J (x ++ y) -> ~ In r_j x ->
    (literal (x ++ r_j :: y) = Some z <-> number x = Some (re z) /\ number y = Some (im z)).
  Proof.
    intros x y z Na NJ Nj. unfold literal, ParseComplex.
    rewrite split_none; [|intros I; apply in_app_iff in I as [I|[I|I]]; [apply Na; apply in_app_iff; auto|discriminate I|apply Na; apply in_app_iff; auto]].
    rewrite split_none; [|intros I; apply in_app_iff in I as [I|[I|I]]; [apply NJ; apply in_app_iff; auto|discriminate I|apply NJ; apply in_app_iff; auto]].
    rewrite split_some by exact Nj. unfold number. destruct z as [a b]. cbn [re im].
    destruct (ParseFloat strconv x) as [f|]; [|split; [discriminate|intros [H _]; discriminate H]].
    destruct (ParseFloat strconv y) as [g|]; [|split; [discriminate|intros [_ H]; discriminate H]].
    split; [intros [= <- <-]; auto|intros [[= ->] [= ->]]; reflexivity].
  Qed.
  Theorem C152_real : forall x z, ~ In r_a x -> ~ In r_J x -> ~ In r_j x -> (literal x = Some z <-> exists f, number x = Some f /\ z = f2c f).
  Proof.
    intros x z Na NJ Nj. unfold literal, ParseComplex. rewrite !split_none by assumption. unfold number.
    destruct (ParseFloat strconv x) as [f|]; [|split; [discriminate|intros (f & H & _); discriminate H]].
    split; [intros [= <-]; exists f; auto|intros (g & [= ->] & ->); reflexivity].
  Qed.
  (* XaD: the magnitude X and the angle D; the quarter turns are exact: X times i, D/90 times *)
  Theorem C152_quarter_turns : forall x d f (q : nat), ~ In r_a x -> number x = Some f -> finiteF f ->
    number d = Some (f_of_int (90 * Z.of_nat q)) -> (q < 4)%nat ->
    exists w, literal (x ++ r_a :: d) = Some w /\ same w (Nat.iter q (fun z => c_mul z c_i) (f2c f)).
  Proof.
    intros x d f q Na Ex Ff Ed Hq. unfold literal, ParseComplex. rewrite split_some by exact Na. unfold number in Ex, Ed. rewrite Ex, Ed.
    pose proof (finite_no_inf f Ff) as Nf.
    assert (T : forall g s, finiteF g -> same (c_mul (mkC g (S754_zero s)) c_i) (mkC (S754_zero false) g)).
    { intros g s Fg. unfold c_mul, c_i, same. cbn [re im]. rewrite (mul_one_r g Fg). destruct (mul_zero_r g false (finite_no_inf g Fg)) as [t E]. unfold f0. rewrite E. split.
      - destruct s, t; right; do 2 eexists; split; reflexivity.
      - destruct s; apply add_zero_r. }
    assert (U : forall g s, finiteF g -> same (c_mul (mkC (S754_zero s) g) c_i) (mkC (SFopp g) (S754_zero false))).
    { intros g s Fg. unfold c_mul, c_i, same. cbn [re im]. rewrite (mul_one_r g Fg). destruct (mul_zero_r g false (finite_no_inf g Fg)) as [t E]. unfold f0. rewrite E. split.
      - destruct s; rewrite f_sub_add; apply add_zero_l.
      - destruct s, t; right; do 2 eexists; split; reflexivity. }
    assert (M : forall z w, same z w -> finite z -> finite w -> same (c_mul z c_i) (c_mul w c_i)).
    { intros z w S Fz Fw. destruct z as [a b], w as [c e]. destruct S as [Sa Sb], Fz as [Fa Fb], Fw as [Fc Fe]. cbn [re im] in *. unfold c_mul, c_i, same. cbn [re im].
      rewrite !mul_one_r by assumption. unfold f0.
      destruct (mul_zero_r a false (finite_no_inf a Fa)) as [t1 ->]. destruct (mul_zero_r b false (finite_no_inf b Fb)) as [t2 ->].
      destruct (mul_zero_r c false (finite_no_inf c Fc)) as [t3 ->]. destruct (mul_zero_r e false (finite_no_inf e Fe)) as [t4 ->].
      rewrite !f_sub_add. split; apply f_add_same; try assumption; try (right; do 2 eexists; split; reflexivity). apply sameF_opp. exact Sb. }
    assert (Z : forall s, finiteF (S754_zero s)) by (intros s; exists 0%R, (B754_zero s); auto).
    assert (O : finiteF (SFopp f)) by (destruct Ff as [r Hr]; exists (- r)%R; apply repr_opp; exact Hr).
    assert (W : forall z w, same z w -> finite z -> finite w).
    { intros z w [S1 S2] [F1 F2]. split; [destruct S1 as [<-|(s & t & _ & ->)]|destruct S2 as [<-|(s & t & _ & ->)]]; auto. }
    assert (Y : forall z w, same z w -> same w z) by (intros z w [S1 S2]; split; apply sameF_sym; assumption).
    assert (X : forall z w v, same z w -> same w v -> same z v) by (intros z w v [S1 S2] [S3 S4]; split; eapply sameF_trans; eassumption).
    destruct q as [|[|[|[|q]]]]; [| | | |lia]; cbn [Nat.iter nat_rect].
    - exists (mkC f f0). split; [reflexivity|]. split; apply sameF_refl.
    - exists (mkC f0 f). split; [reflexivity|]. apply Y. apply T. exact Ff.
    - exists (mkC (SFopp f) f0). split; [reflexivity|]. apply Y. eapply X; [apply M; [apply T; exact Ff| |split; cbn [re im]; auto; apply Z]|apply U; exact Ff].
      eapply W; [apply Y, T; exact Ff|split; cbn [re im]; auto; apply Z].
    - exists (mkC f0 (SFopp f)). split; [reflexivity|]. apply Y.
      assert (S2 : same (c_mul (c_mul (mkC f f0) c_i) c_i) (mkC (SFopp f) (S754_zero false))).
      { eapply X; [apply M; [apply T; exact Ff| |split; cbn [re im]; auto; apply Z]|apply U; exact Ff].
        eapply W; [apply Y, T; exact Ff|split; cbn [re im]; auto; apply Z]. }
      eapply X; [apply M; [exact S2| |split; cbn [re im]; auto; apply Z]|apply T; exact O].
      eapply W; [apply Y; exact S2|split; cbn [re im]; auto; apply Z].
  Qed.
  (* what is printed with full precision (PP = ¯1) is read as the same number.  The contract with Go's
     library: the text of a float64 consists of digits + - . e, does not end in a point, and is read back. *)
  Context (show : spec_float -> text).
  Theorem C152_reads_back : forall z,
    (forall f, f = re z \/ f = im z ->
      strconv (show f) = Some f /\ Forall (fun c => (48 <= c <= 57) \/ c = 43 \/ c = 45 \/ c = 46 \/ c = 101) (show f) /\ (forall s, show f <> s ++ [46])) ->
    literal (ComplexString show z) = Some z /\ literal (ComplexStringMinus show z) = Some z.
  Proof.
    intros z H.
    assert (P : forall f, f = re z \/ f = im z -> number (show f) = Some f /\ number (replace r_minus r_high (show f)) = Some f /\
              (forall c, In c (show f) \/ In c (replace r_minus r_high (show f)) -> c <> r_a /\ c <> r_J)).
    { intros f Hf. destruct (H f Hf) as (E & C & L). pose proof (proj1 (Forall_forall _ _) C) as Ci. cbv beta in Ci.
      assert (N1 : replace r_high r_minus (show f) = show f) by (apply replace_none; intros I; apply Ci in I; unfold r_high in I; lia).
      assert (N2 : replace r_high r_minus (replace r_minus r_high (show f)) = show f) by (apply replace_back; intros I; apply Ci in I; unfold r_high in I; lia).
      unfold number, ParseFloat. rewrite N1, N2, (trim_none _ L), E. split; [reflexivity|]. split; [reflexivity|].
      intros c [I|I]; [apply Ci in I; unfold r_a, r_J; lia|]. unfold replace in I. apply in_map_iff in I as (d & <- & I). apply Ci in I.
      destruct (d =? r_minus); unfold r_a, r_J, r_high; lia. }
    destruct (P (re z) (or_introl eq_refl)) as (P1 & P2 & P3). destruct (P (im z) (or_intror eq_refl)) as (Q1 & Q2 & Q3).
    split; [unfold ComplexString; unfold replace; rewrite map_app; cbn [map]; change (r_J =? r_minus) with false; cbv iota;
      change (map (fun x => if x =? r_minus then r_high else x)) with (replace r_minus r_high)|unfold ComplexStringMinus]; apply C152_cartesian; auto.
    - intros I. apply in_app_iff in I as [I|I]; [exact (proj1 (P3 _ (or_intror I)) eq_refl)|exact (proj1 (Q3 _ (or_intror I)) eq_refl)].
    - intros I. exact (proj2 (P3 _ (or_intror I)) eq_refl).
    - intros I. apply in_app_iff in I as [I|I]; [exact (proj1 (P3 _ (or_introl I)) eq_refl)|exact (proj1 (Q3 _ (or_introl I)) eq_refl)].
    - intros I. exact (proj2 (P3 _ (or_introl I)) eq_refl).
  Qed.
End Literal.
Print Assumptions C152_cartesian. Print Assumptions C152_cartesian_j. Print Assumptions C152_real.
Print Assumptions C152_quarter_turns. Print Assumptions C152_reads_back.
(* a reader of one-digit numbers with a sign meets the contracts: 3a270, ¯3J4 and its way back *)
Example C152_example :
  let strconv s := match s with
    | [c] => Some (f_of_int (c - 48)) | [45; c] => Some (f_of_int (48 - c)) | [50; 55; 48] => Some (f_of_int 270) | _ => None end in
  let show f := if SFltb f f0 then [45; 51] else [52] in
  let z := mkC (f_of_int (-3)) (f_of_int 4) in
  ParseComplex strconv mkC [51; 97; 50; 55; 48] = Some (mkC f0 (f_of_int (-3))) /\ ParseComplex strconv mkC [175; 51; 74; 52] = Some z /\
  ComplexString show z = [175; 51; 74; 52] /\
  (forall f, f = re z \/ f = im z ->
      strconv (show f) = Some f /\ Forall (fun c => (48 <= c <= 57) \/ c = 43 \/ c = 45 \/ c = 46 \/ c = 101) (show f) /\ (forall s, show f <> s ++ [46])).
Proof.
  cbv zeta. repeat (split; [vm_compute; reflexivity|]). intros f Hf. cbn [re im] in Hf. destruct Hf as [-> | ->].
  - split; [vm_compute; reflexivity|]. change (SFltb (f_of_int (-3)) f0) with true. cbv iota. split; [repeat constructor; lia|].
    intros s E. apply (f_equal (@rev Z)) in E. rewrite rev_app_distr in E. discriminate E.
  - split; [vm_compute; reflexivity|]. change (SFltb (f_of_int 4) f0) with false. cbv iota. split; [repeat constructor; lia|].
    intros s E. apply (f_equal (@rev Z)) in E. rewrite rev_app_distr in E. discriminate E.
Qed.
