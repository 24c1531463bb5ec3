(* Prop_Big3.v -- the greatest common divisor of exact numbers (C136). *)
From Coq Require Import String QArith Qabs Qround Qpower Qfield Qcanon Lia.
From Verif Require Import Base M_Array S_Array P_Array Eff M_Number S_Number P_Number M_Big S_Big P_Big P_Big2 P_Big3 P_Big4 P_Big5 Prop_Big.
Open Scope Z_scope.

(* g is the greatest common divisor of x and y: both are multiples of g, by integers that
   have no common divisor *)
Definition gcd_q (x y g : Q) : Prop := (0 <= g)%Q /\ exists m n, (x == g * inject_Z m)%Q /\ (y == g * inject_Z n)%Q /\ Z.gcd m n = 1.

Lemma inject_inj a b : (inject_Z a == inject_Z b)%Q -> a = b.
Proof. unfold Qeq. cbn. lia. Qed.
(* the divisor of two integers *)
Lemma gcd_int a b G m n : (0 <= G)%Q -> (inject_Z a == G * inject_Z m)%Q -> (inject_Z b == G * inject_Z n)%Q -> Z.gcd m n = 1 -> (G == inject_Z (Z.gcd a b))%Q.
Proof.
  intros HG Ha Hb Hg. destruct (Z.gcd_bezout m n 1 Hg) as (s & t & B).
  assert (E : (G == inject_Z (s * a + t * b))%Q).
  { rewrite inject_Z_plus, !inject_Z_mult, Ha, Hb. transitivity (G * inject_Z (s * m + t * n))%Q; [rewrite B; ring|rewrite inject_Z_plus, !inject_Z_mult; ring]. }
  set (k := s * a + t * b) in *. assert (K0 : 0 <= k) by (rewrite E in HG; unfold Qle in HG; cbn in HG; lia).
  assert (A : a = k * m) by (apply inject_inj; rewrite Ha, E, inject_Z_mult; reflexivity).
  assert (B2 : b = k * n) by (apply inject_inj; rewrite Hb, E, inject_Z_mult; reflexivity).
  rewrite E. rewrite A, B2, Z.gcd_mul_mono_l_nonneg, Hg, Z.mul_1_r by exact K0. reflexivity.
Qed.
Lemma gcd_q_int a b x y g : (inject_Z a == x)%Q -> (inject_Z b == y)%Q -> gcd_q x y g -> (g == inject_Z (Z.gcd a b))%Q.
Proof. intros Ha Hb (H0 & m & n & E1 & E2 & E3). apply (gcd_int a b g m n); [exact H0|rewrite Ha; exact E1|rewrite Hb; exact E2|exact E3]. Qed.
Lemma gcd_q_rat a b x y g : (a == x)%Q -> (b == y)%Q -> gcd_q x y g ->
  (g == Qmake (Z.gcd (Qnum a * Zpos (Qden b)) (Qnum b * Zpos (Qden a))) (Qden a * Qden b))%Q.
Proof.
  intros Ha Hb (H0 & m & n & E1 & E2 & E3). set (D := inject_Z (Zpos (Qden a * Qden b))).
  assert (D0 : (0 < D)%Q) by (unfold D, Qlt; cbn; lia). assert (DN : ~ (D == 0)%Q) by (intros E; rewrite E in D0; apply (Qlt_irrefl _ D0)).
  assert (F1 : (inject_Z (Qnum a * Zpos (Qden b)) == (g * D) * inject_Z m)%Q).
  { transitivity (a * D)%Q; [destruct a as [an ad], b as [bn bd]; unfold D, Qeq; cbn; nia|]. rewrite Ha, E1. ring. }
  assert (F2 : (inject_Z (Qnum b * Zpos (Qden a)) == (g * D) * inject_Z n)%Q).
  { transitivity (b * D)%Q; [destruct a as [an ad], b as [bn bd]; unfold D, Qeq; cbn; nia|]. rewrite Hb, E2. ring. }
  assert (F3 : (0 <= g * D)%Q) by (apply Qmult_le_0_compat; [exact H0|apply Qlt_le_weak, D0]).
  set (k := Z.gcd (Qnum a * Zpos (Qden b)) (Qnum b * Zpos (Qden a))). assert (F : (inject_Z k == g * D)%Q) by (symmetry; exact (gcd_int _ _ _ _ _ F3 F1 F2 E3)).
  transitivity (inject_Z k / D)%Q; [rewrite F; field; exact DN|]. unfold D. rewrite (Qmake_Qdiv k). reflexivity.
Qed.
(* there is only one *)
Theorem C136_gcd_unique x y g g' : gcd_q x y g -> gcd_q x y g' -> (g == g')%Q.
Proof. intros H H'. rewrite (gcd_q_rat x y x y g), (gcd_q_rat x y x y g') by (assumption || reflexivity). reflexivity. Qed.

Lemma to_index_zero a : (match i_toindex a with Some 0 => true | _ => false end) = (a =? 0).
Proof.
  unfold i_toindex. destruct ((minint <=? a) && (a <=? maxint)) eqn:E.
  - destruct a; reflexivity.
  - symmetry. apply Z.eqb_neq. intros ->. discriminate E.
Qed.
Lemma rat_index_zero q : Qred q = q -> (match r_toindex q with Some 0 => true | _ => false end) = (Qnum q =? 0).
Proof.
  intros Hq. unfold r_toindex. rewrite Hq. destruct (Pos.eqb (Qden q) 1) eqn:E; [apply to_index_zero|]. symmetry. apply Z.eqb_neq. intros H0.
  rewrite <- Hq in E. assert (Z0 : (q == 0)%Q) by (unfold Qeq; rewrite H0; reflexivity). rewrite (Qred_complete _ _ Z0) in E. discriminate E.
Qed.
Lemma Rat_Gcd_run h p q a b : znth h p = Some (CRat a) -> znth h q = Some (CRat b) -> Qred a = a -> Qred b = b ->
  exists h2, Rat_Gcd p q h = (Ok (Some (VR (zlen h2))), h2 ++ [CRat (Qred (Qmake (Z.gcd (Qnum a * Zpos (Qden b)) (Qnum b * Zpos (Qden a))) (Qden a * Qden b)))]).
Proof.
  intros Hp Hq Na Nb. unfold Rat_Gcd, some. rewrite (ebind_ok _ _ _ _ _ (getr_at _ _ _ Hp)), (ebind_ok _ _ _ _ _ (getr_at _ _ _ Hq)). rewrite Na, Nb.
  set (u := Qnum a * Zpos (Qden b)). set (v := Qnum b * Zpos (Qden a)).
  step. rewrite (ebind_ok _ _ _ _ _ (set_last h _ _)). set (h1 := h ++ [CInt u]).
  step. rewrite (ebind_ok _ _ _ _ _ (set_last h1 _ _)). set (h2 := h1 ++ [CInt v]).
  step. unfold i_op. rewrite !ebind_assoc. rewrite (ebind_ok _ _ _ _ _ (geti_at (h2 ++ [CInt 0]) (zlen h) u (znth_old _ _ _ _ (znth_old _ _ _ _ (znth_last h (CInt u) []))))).
  rewrite ebind_assoc. rewrite (ebind_ok _ _ _ _ _ (geti_at (h2 ++ [CInt 0]) (zlen h1) v (znth_old _ _ _ _ (znth_last h1 (CInt v) [])))).
  rewrite (ebind_ok _ _ _ _ _ (set_last h2 _ _)). set (h3 := h2 ++ [CInt (Z.gcd u v)]).
  step. rewrite (ebind_ok _ _ _ _ _ (set_last h3 _ _)). set (w := Zpos (Qden a) * Zpos (Qden b)). set (h4 := h3 ++ [CInt w]).
  step. rewrite (ebind_ok _ _ _ _ _ (geti_at (h4 ++ [CRat 1]) (zlen h2) (Z.gcd u v) (znth_old _ _ _ _ (znth_old _ _ _ _ (znth_last h2 (CInt (Z.gcd u v)) []))))).
  rewrite (ebind_ok _ _ _ _ _ (geti_at (h4 ++ [CRat 1]) (zlen h3) w (znth_old _ _ _ _ (znth_last h3 (CInt w) [])))).
  rewrite (ebind_ok _ _ _ _ _ (set_last h4 _ _)). exists h4. reflexivity.
Qed.

Lemma iszero_int f64 h p a : znth h p = Some (CInt a) -> iszeroN f64 (VI p) h = (Ok (a =? 0), h).
Proof. intros H. unfold iszeroN. cbn [toindex]. rewrite ebind_assoc, (ebind_ok _ _ _ _ _ (geti_at _ _ _ H)). unfold ebind, eret. rewrite to_index_zero. reflexivity. Qed.
Lemma iszero_rat f64 h p a : znth h p = Some (CRat a) -> Qred a = a -> iszeroN f64 (VR p) h = (Ok (Qnum a =? 0), h).
Proof. intros H N. unfold iszeroN. cbn [toindex]. rewrite ebind_assoc, (ebind_ok _ _ _ _ _ (getr_at _ _ _ H)). unfold ebind, eret. rewrite (rat_index_zero a N). reflexivity. Qed.

Section CLAIMS.
  Context (rnd : Z -> Q -> fl) (sqt : Z -> Q -> fl) (f64 : fl -> fl).
  Context (fexp flog : flt -> flt) (fpow : flt -> flt -> flt).
  Notation arith2 := (arith2 rnd f64 flog fpow). Notation call2 := (call2 rnd f64 flog fpow).

  (* what ∨ computes: a zero gives the other argument *)
  Definition gcd0 (x y z : Q) : Prop := ((x == 0)%Q -> (z == y)%Q) /\ (~ (x == 0)%Q -> (y == 0)%Q -> (z == x)%Q) /\ (~ (x == 0)%Q -> ~ (y == 0)%Q -> gcd_q x y z).
  Lemma gcd0_value h l r x y z : stands h l x -> stands h r y -> gcd0 x y z -> (small l -> small r -> ~ (x == 0)%Q -> ~ (y == 0)%Q -> fits_q z) -> gives (arith2 Exact GCD l r) h z.
  Proof.
    intros Hl Hr (Z1 & Z2 & Z3) Hf. apply (gives_two rnd sqt f64 flog fpow); [apply xo; discriminate|].
    assert (I0 : forall a, (inject_Z a == 0)%Q <-> a = 0) by (intros a; apply inject0).
    apply (arith2_value_b rnd sqt f64 flog fpow GCD h l r x y z); try assumption.
    - intros a b h1 El Er. subst l r. inversion Hl; subst. inversion Hr; subst. destruct a.
      + destruct b; [exists None; split; [reflexivity|discriminate]|]. exists (Some (VB true)). split; [reflexivity|]. intros v E; injection E as <-. exists (inject_Z 1). split; [apply (stands_bool h1 true)|].
        symmetry. apply Z2; [intros E; discriminate E|reflexivity].
      + exists (Some (VB b)). split; [reflexivity|]. intros v E; injection E as <-. exists (inject_Z (if b then 1 else 0)). split; [apply (stands_bool h1 b)|]. symmetry. apply Z1. reflexivity.
    - intros a b h1 X S1 S2 Ra Rb Ha Hb. cbn [M_Big.call2]. unfold iszeroN. cbn [toindex]. unfold ebind, eret, some.
      destruct (a =? 0) eqn:A0; [apply Z.eqb_eq in A0; subst a|].
      { eexists (Some _), h1. split; [reflexivity|]. intros v E; injection E as <-. exists (inject_Z b). split; [apply stands_small; exact Rb|]. rewrite Hb. symmetry. apply Z1. rewrite <- Ha. reflexivity. }
      apply Z.eqb_neq in A0. replace (match a with 0 => true | _ => false end) with false by (destruct a; [lia|reflexivity..]).
      assert (NX : ~ (x == 0)%Q) by (rewrite <- Ha, I0; exact A0).
      destruct (b =? 0) eqn:B0; [apply Z.eqb_eq in B0; subst b|].
      { eexists (Some _), h1. split; [reflexivity|]. intros v E; injection E as <-. exists (inject_Z a). split; [apply stands_small; exact Ra|]. rewrite Ha. symmetry. apply Z2; [exact NX|rewrite <- Hb; reflexivity]. }
      apply Z.eqb_neq in B0. replace (match b with 0 => true | _ => false end) with false by (destruct b; [lia|reflexivity..]).
      assert (NY : ~ (y == 0)%Q) by (rewrite <- Hb, I0; exact B0).
      pose proof (gcd_q_int a b x y z Ha Hb (Z3 NX NY)) as G. pose proof (fits_q_comp _ _ G (Hf S1 S2 NX NY)) as F. apply (fits_inject rnd sqt) in F.
      eexists (Some _), h1. split; [reflexivity|]. intros v E; injection E as <-. exists (inject_Z (Z.gcd a b)). unfold int_gcd. rewrite wrap_id by exact F. split; [constructor; unfold fits, minint, maxint in *; lia|]. symmetry. exact G.
    - intros p q a b h1 X Hp Hq Ha Hb. cbn [M_Big.call2]. rewrite (ebind_ok _ _ _ _ _ (iszero_int _ _ _ _ Hp)).
      destruct (a =? 0) eqn:A0; [apply Z.eqb_eq in A0; subst a|].
      { eexists (Some _), h1. split; [reflexivity|]. intros v E; injection E as <-. exists (inject_Z b). split; [constructor; exact Hq|]. rewrite Hb. symmetry. apply Z1. rewrite <- Ha. reflexivity. }
      apply Z.eqb_neq in A0. assert (NX : ~ (x == 0)%Q) by (rewrite <- Ha, I0; exact A0).
      rewrite (ebind_ok _ _ _ _ _ (iszero_int _ _ _ _ Hq)). destruct (b =? 0) eqn:B0; [apply Z.eqb_eq in B0; subst b|].
      { eexists (Some _), h1. split; [reflexivity|]. intros v E; injection E as <-. exists (inject_Z a). split; [constructor; exact Hp|]. rewrite Ha. symmetry. apply Z2; [exact NX|rewrite <- Hb; reflexivity]. }
      apply Z.eqb_neq in B0. assert (NY : ~ (y == 0)%Q) by (rewrite <- Hb, I0; exact B0).
      change (Int_Gcd p q h1) with (Int_bin Z.gcd p q h1). rewrite (Int_bin_run Z.gcd h1 p q a b Hp Hq). eexists (Some _), _. split; [reflexivity|]. intros v E; injection E as <-.
      eexists. split; [apply stands_new_int|]. symmetry. apply (gcd_q_int a b x y z Ha Hb), Z3; assumption.
    - intros p q a b h1 X Hp Hq Na Nb _ Ha Hb. cbn [M_Big.call2]. rewrite (ebind_ok _ _ _ _ _ (iszero_rat _ _ _ _ Hp Na)).
      assert (NUM : forall c, Qnum c = 0 <-> (c == 0)%Q) by (intros c; unfold Qeq; cbn; lia).
      destruct (Qnum a =? 0) eqn:A0.
      { apply Z.eqb_eq, NUM in A0. eexists _, h1. split; [reflexivity|]. exists b. split; [constructor; assumption|]. rewrite Hb. symmetry. apply Z1. rewrite <- Ha. exact A0. }
      apply Z.eqb_neq in A0. assert (NX : ~ (x == 0)%Q) by (rewrite <- Ha, <- NUM; exact A0).
      rewrite (ebind_ok _ _ _ _ _ (iszero_rat _ _ _ _ Hq Nb)). destruct (Qnum b =? 0) eqn:B0.
      { apply Z.eqb_eq, NUM in B0. eexists _, h1. split; [reflexivity|]. exists a. split; [constructor; assumption|]. rewrite Ha. symmetry. apply Z2; [exact NX|]. rewrite <- Hb. exact B0. }
      apply Z.eqb_neq in B0. assert (NY : ~ (y == 0)%Q) by (rewrite <- Hb, <- NUM; exact B0).
      destruct (Rat_Gcd_run h1 p q a b Hp Hq Na Nb) as (h2 & E). rewrite E. eexists _, _. split; [reflexivity|]. eexists. split; [apply stands_new_rat|]. rewrite Qred_correct. symmetry.
      apply (gcd_q_rat a b x y z Ha Hb), Z3; assumption.
    - apply xo; discriminate.
  Qed.
  Theorem C136_gcd : forall h l r x y g, stands h l x -> stands h r y -> ~ (x == 0)%Q -> ~ (y == 0)%Q -> gcd_q x y g -> (small l -> small r -> fits_q g) ->
    gives (arith2 Exact GCD l r) h g.
  Proof. intros h l r x y g Hl Hr NX NY Hg Hf. apply (gcd0_value h l r x y g Hl Hr); [split; [|split]; tauto|auto]. Qed.
  (* a zero argument gives the other argument, with its sign: 0∨¯5 is ¯5 *)
  Theorem C136_gcd_zero : forall h l r x y, stands h l x -> stands h r y -> ((x == 0)%Q -> gives (arith2 Exact GCD l r) h y) /\ ((y == 0)%Q -> gives (arith2 Exact GCD l r) h x).
  Proof.
    intros h l r x y Hl Hr. split; intros E.
    - apply (gcd0_value h l r x y y Hl Hr); [split; [reflexivity|split; intros; tauto]|intros; tauto].
    - apply (gcd0_value h l r x y x Hl Hr); [split; [intros E2; rewrite E, E2; reflexivity|split; [reflexivity|intros; tauto]]|intros; tauto].
  Qed.
End CLAIMS.
Theorem C136_gcd_sign_refuted : exists h', A2 Exact GCD (VS 0) (VS (-5)) [] = (Ok (VS (-5)), h') /\ ~ gcd_q 0 (-5) (-5).
Proof. eexists. split; [reflexivity|]. intros [H _]. unfold Qle in H. cbn in H. lia. Qed.
(* (3÷4)∨2*70 is 1÷4 *)
Example C136_gcd_example : gcd_q (3 # 4) (inject_Z (2 ^ 70)) (1 # 4) /\ gives (A2 Exact GCD (VR 1) (VI 0)) ex_heap (1 # 4).
Proof.
  assert (Q : gcd_q (3 # 4) (inject_Z (2 ^ 70)) (1 # 4)). { split; [unfold Qle; cbn; lia|]. exists 3, (2 ^ 72). repeat split. }
  split; [exact Q|]. apply (C136_gcd near root (round_fl 53) (fun x => x) (fun x y => x) ex_heap (VR 1) (VI 0) (3 # 4) (inject_Z (2 ^ 70))); try exact Q; try (intros E; discriminate E).
  - constructor; reflexivity.
  - constructor; reflexivity.
  - intros [].
Qed.
Print Assumptions C136_gcd. Print Assumptions C136_gcd_zero. Print Assumptions C136_gcd_unique. Print Assumptions C136_gcd_sign_refuted.
