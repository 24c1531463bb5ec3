(* P_Order.v -- comparisons, ToBool, isEqual. *)
From Coq Require Import String QArith Qround Qabs Floats.SpecFloat.
From Coq Require Qcanon.
From Verif Require Import Base M_Number S_Number P_Number P_Tower.
Open Scope Z_scope.

(* compare computes the comparison c from a less and an equals that are right *)
Lemma compare_spec {P} (M : methods P) c L R (l e : bool) (lt eq gt : Prop) :
  less M L (Some R) = Ok (Some l) -> equals M L (Some R) = Ok e ->
  (l = true <-> lt) -> (e = true <-> eq) -> exactly_one lt eq gt ->
  exists b, compare M c L (Some R) = Ok (Some (vbool b)) /\ (b = true <-> cmp_spec c lt eq gt).
Proof.
  intros Hl He Il Ie Hx. unfold exactly_one in Hx.
  destruct c; unfold compare, oksome; rewrite ?Hl, ?He; cbn [obind]; eexists; (split; [reflexivity|]); cbn [cmp_spec];
    destruct l, e; cbn [negb andb orb]; split; intros H; try reflexivity; try discriminate; try tauto;
    repeat match goal with I : true = true <-> _ |- _ => pose proof (proj1 I eq_refl); clear I | I : false = true <-> ?X |- _ => assert (~ X) by (intros Hc; apply I in Hc; discriminate); clear I end; tauto.
Qed.

(* a dyadic function that gives a result on all pairs of numbers of equal type is
   applied to the unified pair *)
Lemma arith2_total {P} (M : methods P) (t : tower P) fn a b a' b' v :
  SameType M t a b = Ok (a', b') -> fn (VNum a') (Some (VNum b')) = Ok (Some v) ->
  (exists nu, ToNumeric M t a' = Some nu /\ Class nu < zlen (Numbers t)) ->
  arith2 M t fn (VNum a) (VNum b) = Ok v.
Proof.
  intros HS Hf (nu & Hnu & Hc). unfold arith2. cbn [vtype_eqb].
  destruct (ntype_eqb (typeOf M a) (typeOf M b)) eqn:Et.
  - apply ntype_eqb_eq in Et. rewrite (same_type_eq M t a b Et) in HS. injection HS as <- <-. rewrite Hf. reflexivity.
  - cbn [obind]. rewrite HS. cbn [obind]. rewrite Hnu. destruct (Z.to_nat (zlen (Numbers t) - Class nu)) eqn:E; [lia|].
    cbn [arith2_loop]. cbn [option_map]. rewrite Hf. reflexivity.
Qed.

(* ---- the exact tower ---- *)
Definition same_big (rf : Q -> Q) (a b : num bignum) : num bignum * num bignum :=
  match SameType (bigM rf) bigT a b with Ok p => p | _ => (a, b) end.
Lemma same_big_spec rf a b : exists a' b', SameType (bigM rf) bigT a b = Ok (a', b') /\ typeOf (bigM rf) a' = typeOf (bigM rf) b' /\
  Qeq (qval a') (qval a) /\ Qeq (qval b') (qval b) /\ exists nu, ToNumeric (bigM rf) bigT a' = Some nu /\ Class nu < zlen (Numbers bigT).
Proof.
  assert (HB : forall a, exists nu, ToNumeric (bigM rf) bigT a = Some nu /\ Class nu < zlen (Numbers bigT)).
  { intros [x|x|[x|x]]; cbn; eexists; (split; [reflexivity|]); unfold zlen; cbn; lia. }
  destruct a as [x|x|[x|x]], b as [y|y|[y|y]]; eexists; eexists; (split; [reflexivity|]);
    (split; [reflexivity|]); (split; [reflexivity|]); (split; [reflexivity|]); apply HB.
Qed.
Lemma Qlt_inject x y : Qlt (inject_Z x) (inject_Z y) <-> x < y.
Proof. unfold Qlt. cbn. lia. Qed.
Lemma Qeq_inject x y : Qeq (inject_Z x) (inject_Z y) <-> x = y.
Proof. unfold Qeq. cbn. lia. Qed.
Lemma big_less_eq rf a b : typeOf (bigM rf) a = typeOf (bigM rf) b ->
  exists l e, less (bigM rf) (VNum a) (Some (VNum b)) = Ok (Some l) /\ equals (bigM rf) (VNum a) (Some (VNum b)) = Ok e /\
    (l = true <-> Qlt (qval a) (qval b)) /\ (e = true <-> Qeq (qval a) (qval b)).
Proof.
  intros H. destruct a as [x|x|[x|x]], b as [y|y|[y|y]]; try discriminate H; cbn [less equals go_eq pless peq bigM qval];
    eexists; eexists; (split; [reflexivity|]); (split; [reflexivity|]); rewrite ?Qlt_inject, ?Qeq_inject.
  - split; destruct x, y; cbn; split; intros; try reflexivity; try discriminate; lia.
  - rewrite Z.ltb_lt, Z.eqb_eq. tauto.
  - rewrite Z.ltb_lt, Z.eqb_eq. tauto.
  - split; [|apply Qeq_bool_iff]. rewrite Bool.negb_true_iff. split; intros H1.
    + apply Qnot_le_lt. intros H2. apply Qle_bool_iff in H2. congruence.
    + apply not_true_is_false. intros H2. apply Qle_bool_iff in H2. apply (Qlt_not_le _ _ H1 H2).
Qed.
Lemma Q_tri x y : exactly_one (Qlt x y) (Qeq x y) (Qlt y x).
Proof.
  unfold exactly_one. destruct (Q_dec x y) as [[H|H]|H].
  - left. split; [exact H|]. split; [apply Qlt_not_eq; exact H|]. intros H2. apply (Qlt_not_le _ _ H). apply Qlt_le_weak. exact H2.
  - right. right. split; [intros H2; apply (Qlt_not_le _ _ H); apply Qlt_le_weak; exact H2|]. split; [|exact H]. intros E. apply (Qlt_not_eq _ _ H). symmetry. exact E.
  - right. left. split; [intros H2; apply (Qlt_not_eq _ _ H2 H)|]. split; [exact H|]. intros H2. apply (Qlt_not_eq _ _ H2). symmetry. exact H.
Qed.

(* ---- doubles: the order of the specification floats ---- *)
Definition not_nan (f : spec_float) : Prop := f <> S754_nan.
(* rank, exponent and mantissa decide: a lexicographic order *)
Definition fkey (f : spec_float) : Z * Z * Z :=
  match f with
  | S754_nan => (9, 0, 0)
  | S754_zero _ => (0, 0, 0)
  | S754_infinity true => (-2, 0, 0)
  | S754_infinity false => (2, 0, 0)
  | S754_finite true m e => (-1, - e, - Zpos m)
  | S754_finite false m e => (1, e, Zpos m)
  end.
Definition key_lt (a b : Z * Z * Z) : Prop :=
  let '(a1, a2, a3) := a in let '(b1, b2, b3) := b in a1 < b1 \/ (a1 = b1 /\ (a2 < b2 \/ (a2 = b2 /\ a3 < b3))).
Lemma pos_cmp_Z (m n : positive) : Pos.compare_cont Eq m n = (Zpos m ?= Zpos n).
Proof. reflexivity. Qed.
Lemma SFcompare_key x y : not_nan x -> not_nan y ->
  exists c, SFcompare x y = Some c /\
  match c with Lt => key_lt (fkey x) (fkey y) | Eq => fkey x = fkey y | Gt => key_lt (fkey y) (fkey x) end.
Proof.
  intros Hx Hy. destruct x as [sx|sx| |sx mx ex], y as [sy|sy| |sy my ey]; try (exfalso; apply Hx; reflexivity); try (exfalso; apply Hy; reflexivity);
    cbn [SFcompare]; try (destruct sx); try (destruct sy); try (eexists; split; [reflexivity|]; cbn [fkey key_lt]; try reflexivity; lia).
  - destruct (Z.compare_spec ex ey) as [E|E|E]; eexists; (split; [reflexivity|]); cbn [fkey key_lt]; try lia.
    rewrite pos_cmp_Z. destruct (Z.compare_spec (Zpos mx) (Zpos my)) as [G|G|G]; cbn [CompOpp]; [rewrite E; congruence|lia|lia].
  - destruct (Z.compare_spec ex ey) as [E|E|E]; eexists; (split; [reflexivity|]); cbn [fkey key_lt]; try lia.
    rewrite pos_cmp_Z. destruct (Z.compare_spec (Zpos mx) (Zpos my)) as [G|G|G]; [rewrite E; congruence|lia|lia].
Qed.
Lemma key_lt_irr a : ~ key_lt a a.
Proof. destruct a as ((a1, a2), a3). cbn. lia. Qed.
Lemma key_lt_trans a b c : key_lt a b -> key_lt b c -> key_lt a c.
Proof. destruct a as ((a1, a2), a3), b as ((b1, b2), b3), c as ((c1, c2), c3). cbn. lia. Qed.
Lemma SFltb_key x y : not_nan x -> not_nan y -> (SFltb x y = true <-> key_lt (fkey x) (fkey y)).
Proof.
  intros Hx Hy. destruct (SFcompare_key x y Hx Hy) as (c & E & H). unfold SFltb. rewrite E.
  destruct c; split; intros G; try reflexivity; try discriminate; try assumption; exfalso.
  - rewrite H in G. exact (key_lt_irr _ G).
  - exact (key_lt_irr _ (key_lt_trans _ _ _ G H)).
Qed.
Lemma SFeqb_key x y : not_nan x -> not_nan y -> (SFeqb x y = true <-> fkey x = fkey y).
Proof.
  intros Hx Hy. destruct (SFcompare_key x y Hx Hy) as (c & E & H). unfold SFeqb. rewrite E.
  destruct c; split; intros G; try reflexivity; try discriminate; try assumption; exfalso; rewrite G in H; exact (key_lt_irr _ H).
Qed.
Lemma SF_tri x y : not_nan x -> not_nan y -> exactly_one (SFltb x y = true) (SFeqb x y = true) (SFltb y x = true).
Proof.
  intros Hx Hy. unfold exactly_one. rewrite !SFltb_key, SFeqb_key by assumption. destruct (SFcompare_key x y Hx Hy) as (c & _ & H). destruct c.
  - right. left. rewrite H. split; [apply key_lt_irr|]. split; [reflexivity|apply key_lt_irr].
  - left. split; [exact H|]. split; [intros E; rewrite E in H; exact (key_lt_irr _ H)|]. intros G. exact (key_lt_irr _ (key_lt_trans _ _ _ G H)).
  - right. right. split; [intros G; exact (key_lt_irr _ (key_lt_trans _ _ _ G H))|]. split; [intros E; rewrite E in H; exact (key_lt_irr _ H)|exact H].
Qed.

(* ---- truth values ---- *)
Lemma ToBool_spec {P} (M : methods P) n b : ToBool M n = Some b <-> ToIndex M n = Some (bool2int b).
Proof.
  unfold ToBool. destruct (ToIndex M n) as [i|]; [|split; discriminate].
  destruct (Z.ltb_spec i 0); [cbn [orb]; split; intros E; [discriminate|injection E as ->; destruct b; cbn in *; lia]|].
  destruct (Z.ltb_spec 1 i); [cbn [orb]; split; intros E; [discriminate|injection E as ->; destruct b; cbn in *; lia]|]. cbn [orb].
  destruct (Z.eqb_spec i 0) as [->|]; destruct b; cbn; split; intros E; try reflexivity; try discriminate; try (injection E as E; lia).
  f_equal. lia.
Qed.
Lemma big_idx_spec p i : big_idx p = Some i <-> (minint <= i <= maxint /\ Qeq (qval (NT p)) (inject_Z i)).
Proof.
  assert (I : forall z, (if (minint <=? z) && (z <=? maxint) then Some z else None) = Some i <-> (minint <= i <= maxint /\ z = i)).
  { intros z. destruct (Z.leb_spec minint z), (Z.leb_spec z maxint); cbn [andb]; split; intros H1; try discriminate; try (injection H1 as <-; lia); try (exfalso; lia).
    f_equal. lia. }
  destruct p as [z|q]; cbn [big_idx qval].
  - rewrite I, Qeq_inject. tauto.
  - destruct (Pos.eqb_spec (Qden (Qred q)) 1) as [E|E].
    + rewrite I. split; intros (H1 & H2); (split; [exact H1|]).
      * rewrite <- (Qred_correct q). destruct (Qred q) as (a, b). cbn in *. subst. reflexivity.
      * rewrite <- (Qred_correct q) in H2. destruct (Qred q) as (a, b). cbn in *. subst. unfold Qeq in H2. cbn in H2. lia.
    + split; [discriminate|]. intros (_ & H). exfalso. apply E. apply Qred_complete in H. rewrite H.
      rewrite Qcanon.Qred_identity; [reflexivity|]. cbn. apply Z.gcd_1_r.
Qed.
Lemma f_idx01 f (b : bool) : f_idx f = Some (bool2int b) <-> SFeqb f (f_of_int (bool2int b)) = true.
Proof.
  assert (S : forall x y, SFeqb x y = SFeqb y x).
  { intros x y. unfold SFeqb. destruct x as [sx|sx| |sx mx ex], y as [sy|sy| |sy my ey]; cbn [SFcompare]; try reflexivity; try destruct sx; try destruct sy; try reflexivity.
    - rewrite (Z.compare_antisym ex ey). destruct (ex ?= ey) eqn:E; cbn [CompOpp]; try reflexivity. rewrite !pos_cmp_Z, (Z.compare_antisym (Zpos mx)). destruct (Zpos mx ?= Zpos my); reflexivity.
    - rewrite (Z.compare_antisym ex ey). destruct (ex ?= ey) eqn:E; cbn [CompOpp]; try reflexivity. rewrite !pos_cmp_Z, (Z.compare_antisym (Zpos mx)). destruct (Zpos mx ?= Zpos my); reflexivity. }
  unfold f_idx. split.
  - destruct (SFeqb (f_of_int (f_to_int f)) f) eqn:E; [|discriminate]. intros H. injection H as <-. rewrite S. exact E.
  - intros H.
    assert (Hf : (exists s, f = S754_zero s /\ b = false) \/ (f = f_of_int 1 /\ b = true)).
    { destruct b; cbn [bool2int] in H.
      - right. split; [|reflexivity]. change (f_of_int 1) with (S754_finite false 4503599627370496 (-52)) in *.
        unfold SFeqb in H. destruct f as [s|s| |s m e]; cbn [SFcompare] in H; try discriminate; destruct s; try discriminate.
        destruct (Z.compare_spec e (-52)) as [->|?|?]; try discriminate. rewrite pos_cmp_Z in H.
        destruct (Z.compare_spec (Zpos m) 4503599627370496) as [G|?|?]; try discriminate. injection G as ->. reflexivity.
      - left. change (f_of_int 0) with (S754_zero false) in H. unfold SFeqb in H. destruct f as [s|s| |s m e]; cbn [SFcompare] in H; try discriminate; try (destruct s; discriminate). eauto. }
    destruct Hf as [(s & -> & ->)|(-> & ->)]; [destruct s; reflexivity|reflexivity].
Qed.
