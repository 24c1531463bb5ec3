(* P_Tower.v -- the towers of numbers/register.go and big/register.go are
   well-formed; SameType is symmetric; arithmetic at the level of arith1/arith2. *)
From Coq Require Import String QArith Qround Qabs Floats.SpecFloat.
From Verif Require Import Base M_Number S_Number P_Number.
Open Scope Z_scope.

Lemma assoc_In {X} (l : list (Z * X)) k v : assoc l k = Some v -> In (k, v) l.
Proof.
  induction l as [|(k', v') l IH]; cbn [assoc]; [discriminate|].
  destruct (Z.eqb_spec k' k) as [->|H]; [intros E; injection E as <-; left; reflexivity|intros E; right; auto].
Qed.

Lemma bigT_ok rf : tower_ok (bigM rf) bigT.
Proof.
  constructor.
  - intros c nu H. pose proof (znth_some_range _ _ _ H) as Hr. cbn in Hr.
    assert (Hc : c = 0 \/ c = 1) by (unfold zlen in Hr; cbn in Hr; lia). destruct Hc as [-> | ->]; cbn in H; injection H as <-; reflexivity.
  - intros ty nu H. apply assoc_In in H. cbn in H. destruct H as [H|[H|[]]]; injection H as <- <-; reflexivity.
  - intros t1 t2 n1 n2 H1 H2 H. apply assoc_In in H1, H2. cbn in H1, H2.
    destruct H1 as [H1|[H1|[]]]; injection H1 as <- <-; destruct H2 as [H2|[H2|[]]]; injection H2 as <- <-; cbn in H; try reflexivity; discriminate.
  - intros p nu a H. destruct p; cbn in H; injection H as <-; cbn; intros H1 H2; try discriminate. injection H2 as <-. split; [reflexivity|eauto].
  - intros p nu H. destruct p; cbn in H; injection H as <-; cbn; discriminate.
  - intros [b|n|p]; cbn; eexists; (split; [reflexivity|]); intros q Hq; try discriminate. injection Hq as <-. reflexivity.
  - reflexivity.
Qed.

Lemma dT_ok {C T} (cM : methods C) (tM : methods T) f2c c2t : tower_ok (dM cM tM) (dT f2c c2t).
Proof.
  constructor.
  - intros c nu H. pose proof (znth_some_range _ _ _ H) as Hr.
    assert (Hc : c = 0 \/ c = 1 \/ c = 2) by (unfold zlen in Hr; cbn in Hr; lia). destruct Hc as [-> |[-> | ->]]; cbn in H; injection H as <-; reflexivity.
  - intros ty nu H. apply assoc_In in H. cbn in H. destruct H as [H|[H|[H|[]]]]; injection H as <- <-; reflexivity.
  - intros t1 t2 n1 n2 H1 H2 H. apply assoc_In in H1, H2. cbn in H1, H2.
    destruct H1 as [H1|[H1|[H1|[]]]]; injection H1 as <- <-; destruct H2 as [H2|[H2|[H2|[]]]]; injection H2 as <- <-; cbn in H; try reflexivity; discriminate.
  - intros p nu a H. destruct p as [f|c|d]; cbn in H; injection H as <-; cbn.
    + intros _ H2. injection H2 as <-. split; [reflexivity|eauto].
    + destruct (c2t c); cbn; intros H1 H2; [|discriminate]. injection H2 as <-. split; [reflexivity|eauto].
    + discriminate.
  - intros p nu H. destruct p as [f|c|d]; cbn in H; injection H as <-; cbn; try discriminate. destruct (c2t c); cbn; discriminate.
  - intros [b|n|p]; cbn; eexists; (split; [reflexivity|]); intros q Hq; try discriminate. injection Hq as <-. reflexivity.
  - reflexivity.
Qed.

Section SYM.
  Context {P : Type} (M : methods P) (t : tower P) (Hok : tower_ok M t).

  Lemma ntype_eqb_sym a b : ntype_eqb a b = ntype_eqb b a.
  Proof. destruct a, b; try reflexivity. cbn. apply Z.eqb_sym. Qed.
  Lemma ntype_eqb_eq a b : ntype_eqb a b = true <-> a = b.
  Proof. destruct a, b; cbn; split; intros H; try reflexivity; try discriminate; [apply Z.eqb_eq in H; congruence|injection H as ->; apply Z.eqb_refl]. Qed.
  Lemma same_type_eq a b : typeOf M a = typeOf M b -> SameType M t a b = Ok (a, b).
  Proof. intros H. unfold SameType. rewrite (proj2 (ntype_eqb_eq _ _) H). reflexivity. Qed.

  Lemma raised_0_inv a b : raised M t 0 a b -> a = b.
  Proof. intros H. inversion H. reflexivity. Qed.

  Lemma same_type_comm a b :
    match SameType M t a b with Ok (a', b') => SameType M t b a = Ok (b', a') | Err => SameType M t b a = Err | Panic => False end.
  Proof.
    destruct (ntype_eqb (typeOf M a) (typeOf M b)) eqn:Et.
    { apply ntype_eqb_eq in Et. rewrite (same_type_eq a b Et), (same_type_eq b a (eq_sym Et)). reflexivity. }
    assert (Hne : typeOf M a <> typeOf M b) by (intros E; apply ntype_eqb_eq in E; congruence).
    assert (D : (exists x y, a = NB x /\ b = NI y) \/ (exists x y, a = NI x /\ b = NB y) \/
      ((forall x y, ~ (a = NB x /\ b = NI y)) /\ (forall x y, ~ (a = NI x /\ b = NB y)))).
    { destruct a as [x|x|x], b as [y|y|y]; try (left; eauto; fail); try (right; left; eauto; fail); right; right; split; intros ? ? (? & ?); discriminate. }
    destruct D as [(x & y & -> & ->)|[(x & y & -> & ->)|(D1 & D2)]]; [reflexivity|reflexivity|].
    pose proof (same_type_general M t Hok a b Hne D1 D2) as H1.
    assert (D1' : forall x y, ~ (b = NB x /\ a = NI y)) by (intros x y (? & ?); apply (D2 y x); split; assumption).
    assert (D2' : forall x y, ~ (b = NI x /\ a = NB y)) by (intros x y (? & ?); apply (D1 y x); split; assumption).
    pose proof (same_type_general M t Hok b a (not_eq_sym Hne) D1' D2') as H2.
    destruct (SameType M t a b) as [(a', b')| |]; destruct (SameType M t b a) as [(b2, a2)| |]; try contradiction; try reflexivity.
    - destruct H1 as (ca & cb & Hca & Hcb & Ha & Hb & _), H2 as (cb' & ca' & Hcb' & Hca' & Hb' & Ha' & _).
      assert (ca' = ca) by congruence. assert (cb' = cb) by congruence. subst ca' cb'.
      rewrite (raised_fun M t _ _ _ _ Ha' Ha), (raised_fun M t _ _ _ _ Hb' Hb). reflexivity.
    - exfalso. destruct H1 as (ca & cb & Hca & Hcb & Ha & Hb & _).
      destruct H2 as [E|[E|(cb' & ca' & Hcb' & Hca' & H2)]]; try congruence.
      assert (ca' = ca) by congruence. assert (cb' = cb) by congruence. subst ca' cb'.
      destruct H2 as [(_ & H2)|(_ & H2)]; eapply H2; eassumption.
    - exfalso. destruct H2 as (cb & ca & Hcb & Hca & Hb & Ha & _).
      destruct H1 as [E|[E|(ca' & cb' & Hca' & Hcb' & H1)]]; try congruence.
      assert (ca' = ca) by congruence. assert (cb' = cb) by congruence. subst ca' cb'.
      destruct H1 as [(_ & H1)|(_ & H1)]; eapply H1; eassumption.
  Qed.
End SYM.

(* ---- arith2 on integers and booleans, in any tower ---- *)
Section INTS.
  Context {P : Type} (M : methods P) (t : tower P).
  Lemma arith2_direct fn L R v : vtype_eqb M L R = true -> fn L (Some R) = Ok (Some v) -> arith2 M t fn L R = Ok v.
  Proof. intros H1 H2. unfold arith2. rewrite H1, H2. reflexivity. Qed.

  Lemma arith2_ints (g : Z -> Z -> Z) fp a b i j :
    as_int a = Some i -> as_int b = Some j ->
    arith2 M t (fun L R => with_int L R (fun x y => Some (VNum (NI (g x y)))) fp) (VNum a) (VNum b) = Ok (VNum (NI (g i j))).
  Proof.
    intros Ha Hb. unfold arith2.
    pose proof (zlen_nonneg (Numbers t)) as Hn.
    assert (H1 : (0 < Z.to_nat (zlen (Numbers t) - -1))%nat) by lia.
    assert (H2 : Z.to_nat (zlen (Numbers t) - -2) = S (S (Z.to_nat (zlen (Numbers t))))) by lia.
    destruct a as [x|x|x]; cbn in Ha; try discriminate; injection Ha as <-;
    destruct b as [y|y|y]; cbn in Hb; try discriminate; injection Hb as <-;
      cbn [vtype_eqb typeOf ntype_eqb with_int obind SameType ToNumeric Class].
    - rewrite H2. cbn [arith2_loop with_int obind Uptype lookup fst option_map]. reflexivity.
    - destruct (Z.to_nat (zlen (Numbers t) - -1)); [lia|]. cbn [arith2_loop with_int obind option_map]. reflexivity.
    - destruct (Z.to_nat (zlen (Numbers t) - -1)); [lia|]. cbn [arith2_loop with_int obind option_map]. reflexivity.
    - reflexivity.
  Qed.

  (* an operation that has no result on two Ints is passed on to the tower *)
  Lemma arith2_pass fn i j p q nu :
    fn (VNum (NI i)) (Some (VNum (NI j))) = Ok None ->
    Import t (NI i) = NT p -> Import t (NI j) = NT q -> ptype M p = ptype M q ->
    assoc (Numbers t) (ptype M p) = Some nu -> Class nu = 0 ->
    arith2 M t fn (VNum (NI i)) (VNum (NI j)) = arith2 M t fn (VNum (NT p)) (VNum (NT q)).
  Proof.
    intros Hf Hp Hq Hty Hnu Hc. unfold arith2.
    cbn [vtype_eqb typeOf ntype_eqb]. rewrite Hf, <- Hty, Z.eqb_refl. cbn [obind].
    rewrite !same_type_eq by (cbn; congruence). cbn [obind ToNumeric Class lookup]. rewrite Hnu, Hc.
    pose proof (zlen_nonneg (Numbers t)).
    replace (Z.to_nat (zlen (Numbers t) - -1)) with (S (Z.to_nat (zlen (Numbers t)))) by lia.
    cbn [arith2_loop]. cbn [option_map]. rewrite Hf. cbn [obind Uptype fst]. rewrite Hp, Hq. cbn [lookup]. rewrite Hnu, Z.sub_0_r.
    destruct (Z.to_nat (zlen (Numbers t))) as [|n] eqn:En.
    { exfalso. apply assoc_In in Hnu. apply In_nth_error in Hnu. destruct Hnu as (m & Hm). destruct (Numbers t); [destruct m; discriminate|].
      rewrite zlen_cons in En. pose proof (zlen_nonneg l). lia. }
    cbn [arith2_loop option_map].
    destruct (fn (VNum (NT p)) (Some (VNum (NT q)))) as [[v|]| |]; cbn [obind]; reflexivity.
  Qed.
End INTS.
