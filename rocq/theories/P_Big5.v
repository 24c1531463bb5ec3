(* P_Big5.v -- functions of one exact number. *)
From Coq Require Import String QArith Qabs Qround Qpower Qfield Qcanon Lia.
From Verif Require Import Base M_Array S_Array P_Array Eff M_Number S_Number P_Number M_Big S_Big P_Big P_Big2 P_Big3 P_Big4.
Open Scope Z_scope.

Section BIG.
  Context (rnd : Z -> Q -> fl) (sqt : Z -> Q -> fl) (f64 : fl -> fl).
  Context (fexp flog : flt -> flt) (fpow : flt -> flt -> flt).
  Notation call1 := (call1 rnd sqt f64 fexp flog).
  Notation uptype := (uptype rnd f64).
  Notation arith1 := (arith1 rnd sqt f64 fexp flog).
  Notation arith1_loop := (arith1_loop rnd sqt f64 fexp flog).

  Section ONE.
    Context (o : op1) (h0 : heap) (v0 : bval) (x z : Q).
    Context (HB : forall b h1, (inject_Z (bool2int b) == x)%Q -> maybe (call1 o (VB b) h1) z).
    Context (HS : forall a h1, small v0 -> minint <= a <= maxint -> (inject_Z a == x)%Q -> maybe (call1 o (VS a) h1) z).
    Context (HI : forall p a h1, znth h1 p = Some (CInt a) -> (inject_Z a == x)%Q -> maybe (call1 o (VI p) h1) z).
    Context (HR : forall p a h1, znth h1 p = Some (CRat a) -> Qred a = a -> (a == x)%Q ->
                  ((exists p1 n h2, znth h2 p1 = Some (CInt n) /\ (inject_Z n == x)%Q /\ fst (call1 o (VI p1) h2) = Ok None) \/ v0 = VR p) ->
                  surely (call1 o (VR p) h1) z).

    Lemma ext1 v oo h1 h2 : ~ is_complex v -> extends h0 h1 -> call1 o v h1 = (oo, h2) -> extends h1 h2.
    Proof.
      intros C X E.
      refine (proj1 (kept_keeps h1 _ _ (k_call1 rnd sqt f64 fexp flog (zlen h1) o v _) h1 oo h2 (extends_refl h1) E)).
      intros [_ HH]. exact (C HH).
    Qed.
    Lemma loop1_unfold k v : arith1_loop (S k) Exact o v =
      (let! r := call1 o v in match r with Some w => eret w | None => let! u := uptype Exact v in
          match u with Some v' => arith1_loop k Exact o v' | None => efail end end).
    Proof. reflexivity. Qed.
    Lemma l1_rat k p a h1 : znth h1 p = Some (CRat a) -> Qred a = a -> (a == x)%Q ->
        ((exists p1 n h2, znth h2 p1 = Some (CInt n) /\ (inject_Z n == x)%Q /\ fst (call1 o (VI p1) h2) = Ok None) \/ v0 = VR p) ->
        finally (arith1_loop (S k) Exact o (VR p) h1) z.
    Proof.
      intros Hp Na Ha Hc. destruct (HR p a h1 Hp Na Ha Hc) as (v & h2 & E & V). rewrite loop1_unfold. rewrite (ebind_ok _ _ _ _ _ E).
      exists v, h2. split; [reflexivity|exact V].
    Qed.
    Lemma l1_int k p a h1 : extends h0 h1 -> znth h1 p = Some (CInt a) -> (inject_Z a == x)%Q -> finally (arith1_loop (S (S k)) Exact o (VI p) h1) z.
    Proof.
      intros X Hp Ha. destruct (HI p a h1 Hp Ha) as (oo & h2 & E & V). rewrite loop1_unfold. rewrite (ebind_ok _ _ _ _ _ E).
      destruct oo as [v|]; [exists v, h2; split; [reflexivity|exact (V v eq_refl)]|].
      pose proof (ext1 _ _ _ _ (fun HH : is_complex (VI p) => HH) X E) as X2.
      rewrite (ebind_ok _ _ _ _ _ (up_int rnd f64 h2 p a (proj2 X2 _ _ Hp))).
      apply (l1_rat k _ (Qred (inject_Z a))).
      - apply znth_last.
      - apply Qred_complete, Qred_correct.
      - rewrite Qred_correct. exact Ha.
      - left. exists p, a, h1. split; [exact Hp|]. split; [exact Ha|]. rewrite E. reflexivity.
    Qed.
    Lemma l1_small k a h1 : extends h0 h1 -> small v0 -> minint <= a <= maxint -> (inject_Z a == x)%Q -> finally (arith1_loop (S (S (S k))) Exact o (VS a) h1) z.
    Proof.
      intros X S1 R1 Ha. destruct (HS a h1 S1 R1 Ha) as (oo & h2 & E & V). rewrite loop1_unfold. rewrite (ebind_ok _ _ _ _ _ E).
      destruct oo as [v|]; [exists v, h2; split; [reflexivity|exact (V v eq_refl)]|].
      pose proof (ext1 (VS a) _ _ _ (fun HH => HH) X E) as X2.
      rewrite (ebind_ok _ _ _ _ _ (up_small rnd f64 h2 a)). apply (l1_int k _ a); [|apply znth_last|exact Ha].
      eapply extends_trans; [exact X|]. eapply extends_trans; [exact X2|]. apply extends_app.
    Qed.
    Lemma l1_bool b h1 : extends h0 h1 -> small v0 -> (inject_Z (bool2int b) == x)%Q -> finally (arith1_loop 4 Exact o (VB b) h1) z.
    Proof.
      intros X S1 Ha. destruct (HB b h1 Ha) as (oo & h2 & E & V). rewrite loop1_unfold. rewrite (ebind_ok _ _ _ _ _ E).
      destruct oo as [v|]; [exists v, h2; split; [reflexivity|exact (V v eq_refl)]|].
      pose proof (ext1 (VB b) _ _ _ (fun HH => HH) X E) as X2.
      rewrite (ebind_ok _ _ _ (Some (VS (bool2int b))) h2) by reflexivity. apply (l1_small 0).
      - eapply extends_trans; [exact X|exact X2].
      - exact S1.
      - unfold minint, maxint. destruct b; cbn; lia.
      - exact Ha.
    Qed.
    Lemma arith1_value : stands h0 v0 x -> finally (arith1 Exact o v0 h0) z.
    Proof.
      intros Hv. unfold M_Big.arith1.
      assert (M : maybe (call1 o v0 h0) z /\ class_of Exact v0 <> None /\ forall h1, extends h0 h1 -> finally (arith1_loop 4 Exact o v0 h1) z).
      { destruct (stands_cases _ _ _ Hv) as [(b1 & El & Ex)|[(n1 & R1 & El & Ex)|[(p1 & n1 & P1 & El & Ex)|(p1 & q1 & P1 & N1 & El & Ex)]]]; rewrite <- El.
        - assert (A : (inject_Z (bool2int b1) == x)%Q) by (rewrite <- Ex; reflexivity).
          split; [apply HB; exact A|]. split; [discriminate|]. intros h1 X. apply l1_bool; auto. rewrite <- El. exact Logic.I.
        - assert (A : (inject_Z n1 == x)%Q) by (rewrite <- Ex; reflexivity). assert (SS : small v0) by (rewrite <- El; exact Logic.I).
          split; [apply HS; assumption|]. split; [discriminate|]. intros h1 X. apply (l1_small 1); auto.
        - assert (A : (inject_Z n1 == x)%Q) by (rewrite <- Ex; reflexivity).
          split; [apply (HI p1 n1); assumption|]. split; [discriminate|]. intros h1 X. apply (l1_int 2 p1 n1); auto. apply X, P1.
        - assert (A : (q1 == x)%Q) by (rewrite <- Ex; reflexivity).
          split.
          + destruct (HR p1 q1 h0 P1 N1 A (or_intror (eq_sym El))) as (v & h2 & E & V). exists (Some v), h2. split; [exact E|]. intros w Ew; injection Ew as <-; exact V.
          + split; [discriminate|]. intros h1 X. apply (l1_rat 3 p1 q1); auto. apply X, P1. }
      destruct M as ((oo & h2 & E & V) & C & L). rewrite (ebind_ok _ _ _ _ _ E). destruct oo as [v|].
      { exists v, h2. split; [reflexivity|exact (V v eq_refl)]. }
      destruct (class_of Exact v0) eqn:CE; [|exfalso; exact (C eq_refl)]. apply L.
      assert (NC : ~ is_complex v0) by (destruct v0; cbn in *; try discriminate; auto).
      exact (ext1 _ _ _ _ NC (extends_refl h0) E).
    Qed.
  End ONE.
End BIG.

(* reciprocal of an Int *)
Lemma Int_Div_value h p a : znth h p = Some (CInt a) -> a <> 0 -> maybe (Int_Div p h) (/ inject_Z a).
Proof.
  intros Hp Ha. unfold Int_Div, newI, some, no. rewrite (ebind_ok _ _ _ _ _ (geti_at _ _ _ Hp)). replace (a =? 0) with false by lia.
  step.
  match goal with |- context [ebind (i_op euclid_quot (zlen h) (zlen h) p) ?k ?h1] =>
    rewrite (ebind_ok (i_op euclid_quot (zlen h) (zlen h) p) k h1 tt (h ++ [CInt (euclid_quot 1 a)])) end.
  2:{ unfold i_op. rewrite (ebind_ok _ _ _ 1 (h ++ [CInt 1])) by (apply geti_at, znth_last). rewrite (ebind_ok _ _ _ a (h ++ [CInt 1])) by (apply geti_at, znth_old, Hp). apply set_last. }
  step. set (h1 := h ++ [CInt (euclid_quot 1 a)]).
  match goal with |- context [ebind (i_op Z.mul (zlen h1) (zlen h) p) ?k ?h2] =>
    rewrite (ebind_ok (i_op Z.mul (zlen h1) (zlen h) p) k h2 tt (h1 ++ [CInt (euclid_quot 1 a * a)])) end.
  2:{ unfold i_op. rewrite (ebind_ok _ _ _ (euclid_quot 1 a) (h1 ++ [CInt 0])) by (apply geti_at, znth_old, znth_last).
      rewrite (ebind_ok _ _ _ a (h1 ++ [CInt 0])) by (apply geti_at; do 2 apply znth_old; exact Hp). apply set_last. }
  rewrite (ebind_ok _ _ _ (euclid_quot 1 a * a) (h1 ++ [CInt (euclid_quot 1 a * a)])) by (apply geti_at, znth_last).
  destruct (euclid_quot 1 a * a =? a) eqn:EM.
  - exists (Some (VI (zlen h))), (h1 ++ [CInt (euclid_quot 1 a * a)]). split; [reflexivity|]. intros v E; injection E as <-.
    exists (inject_Z (euclid_quot 1 a)). split; [constructor; apply znth_old, znth_last|].
    assert (Q1 : euclid_quot 1 a = 1) by nia. assert (A1 : a = 1).
    { unfold euclid_quot in Q1. destruct (0 <? a) eqn:PA.
      - destruct (Z.eq_dec a 1); [assumption|]. rewrite Z.div_small in Q1 by lia. lia.
      - pose proof (Z.div_pos 1 (- a)). lia. }
    rewrite Q1, A1. reflexivity.
  - eexists None, _. split; [reflexivity|discriminate].
Qed.
(* factorial *)
Fixpoint prod_from (k : nat) (from : Z) : Z := match k with O => 1 | S k' => from * prod_from k' (from + 1) end.
Lemma zlen_h2 h m : zlen (h ++ [CInt m]) = zlen h + 1.
Proof. rewrite zlen_app. reflexivity. Qed.
Lemma gamma_loop_run k : forall h m t from, exists t', gamma_loop k (zlen h + 1) (zlen h) from ((h ++ [CInt m]) ++ [CInt t]) =
   (Ok tt, (h ++ [CInt (m * prod_from k from)]) ++ [CInt t']).
Proof.
  induction k as [|k IH]; intros h m t from; cbn [gamma_loop prod_from].
  - exists t. rewrite Z.mul_1_r. reflexivity.
  - assert (S1 : set (zlen h + 1) (CInt from) ((h ++ [CInt m]) ++ [CInt t]) = (Ok tt, (h ++ [CInt m]) ++ [CInt from])).
    { rewrite <- (zlen_h2 h m). apply set_last. }
    rewrite (ebind_ok _ _ _ _ _ S1).
    assert (S2 : i_op Z.mul (zlen h) (zlen h) (zlen h + 1) ((h ++ [CInt m]) ++ [CInt from]) = (Ok tt, (h ++ [CInt (m * from)]) ++ [CInt from])).
    { unfold i_op. rewrite (ebind_ok _ _ _ m ((h ++ [CInt m]) ++ [CInt from])) by (apply geti_at, znth_old, znth_last).
      rewrite (ebind_ok _ _ _ from ((h ++ [CInt m]) ++ [CInt from])) by (apply geti_at; rewrite <- (zlen_h2 h m); apply znth_last). apply set_mid. }
    rewrite (ebind_ok _ _ _ _ _ S2). destruct (IH h (m * from) from (from + 1)) as [t' E]. exists t'. rewrite Z.mul_assoc. exact E.
Qed.
Lemma prod_from_S k : forall f, prod_from (S k) f = prod_from k f * (f + Z.of_nat k).
Proof.
  induction k as [|k IH]; intros f; [cbn [prod_from]; lia|].
  change (prod_from (S (S k)) f) with (f * prod_from (S k) (f + 1)). rewrite IH. cbn [prod_from]. lia.
Qed.
Lemma prod_fact k : prod_from k 1 = factorial k.
Proof. induction k as [|k IH]; [reflexivity|]. rewrite prod_from_S, IH. cbn [factorial]. lia. Qed.
Lemma Int_Gamma_value h p a : znth h p = Some (CInt a) -> 0 <= a <= 300 -> surely (Int_Gamma p h) (inject_Z (factorial (Z.to_nat a))).
Proof.
  intros Hp Ha. unfold Int_Gamma, newI, some, no. rewrite (ebind_ok _ _ _ _ _ (geti_at _ _ _ Hp)).
  unfold i_toindex. replace ((minint <=? a) && (a <=? maxint)) with true by (unfold minint, maxint; lia).
  destruct (a =? 0) eqn:A0.
  { eexists (VS 1), h. split; [reflexivity|]. exists (inject_Z 1). split; [constructor; unfold minint, maxint; lia|]. assert (a = 0) by lia. subst a. reflexivity. }
  replace ((a <? 0) || (300 <? a)) with false by lia. step. step. rewrite zlen_h2.
  destruct (gamma_loop_run (Z.to_nat a) h 1 0 1) as [t' E]. rewrite (ebind_ok _ _ _ _ _ E). rewrite Z.mul_1_l, prod_fact.
  eexists (VI (zlen h)), _. split; [reflexivity|]. eexists. split; [constructor; apply znth_old, znth_last|reflexivity].
Qed.

(* ---------------- a negative exponent ---------------- *)
Lemma k_pow_tail n neg l r : keeps n (pow_tail neg l r) (fun _ => True).
Proof.
  unfold pow_tail, newI, newR, some, no, rinv.
  repeat first [ eapply keeps_bind; [apply keeps_new|intros ? ?; cbv beta in *]
               | eapply keeps_bind; [apply keeps_set; lia|intros ? _]
               | eapply keeps_bind; [apply keeps_getr|intros ? _]
               | eapply keeps_bind; [apply keeps_geti|intros ? _]
               | apply keeps_ret; exact Logic.I
               | apply keeps_panic
               | apply keeps_set; lia
               | match goal with |- keeps _ (if ?b then _ else _) _ => destruct b end
               | cbv zeta ].
  all: eapply (keeps_bind _ _ _ (fun _ => True)); [|intros; apply keeps_ret; exact Logic.I].
  all: eapply keeps_bind; [apply keeps_getr|intros ? _].
  all: match goal with |- keeps _ (if ?b then _ else _) _ => destruct b end; [apply keeps_panic|apply keeps_set; lia].
Qed.
Lemma Rat_Pow2_negates l p q h res h' : znth h p = Some (CRat q) -> Qred q = q -> (q < 0)%Q ->
  Rat_Pow2 l p h = (res, h') -> znth h' p = Some (CRat (- q)) /\ zlen h <= zlen h'.
Proof.
  intros Hp Nq Hq E. rewrite (Rat_Pow2_tail l p h q Hp) in E.
  assert (Z0 : iszero q = false) by (apply iszero_false; intros Z0; rewrite Z0 in Hq; exact (Qlt_irrefl 0 Hq)).
  rewrite Z0, (proj2 (qsign_neg q) Hq) in E. pose proof (znth_some_range _ _ _ Hp) as R.
  destruct (k_pow_tail (zlen h) true l p (zupd h p (CRat (Qred (- q)))) res h') as (L & K & _); [rewrite zlen_zupd; lia|exact E|].
  rewrite zlen_zupd in L. split; [|lia]. rewrite K by lia. rewrite znth_zupd_same by lia. rewrite Qred_opp, Nq. reflexivity.
Qed.
Section BIG2.
  Context (rnd : Z -> Q -> fl) (sqt : Z -> Q -> fl) (f64 : fl -> fl).
  Context (flog : flt -> flt) (fpow : flt -> flt -> flt).
  Notation arith2 := (arith2 rnd f64 flog fpow). Notation arith2_loop := (arith2_loop rnd f64 flog fpow).
  Notation SameType := (SameType rnd f64). Notation call2 := (call2 rnd f64 flog fpow).

  Lemma loop_negates pl p q h res h' : znth h p = Some (CRat q) -> Qred q = q -> (q < 0)%Q ->
    arith2_loop 1 Exact Pow (VR pl) (VR p) h = (res, h') -> znth h' p = Some (CRat (- q)).
  Proof.
    intros Hp Nq Hq E.
    change (arith2_loop 1 Exact Pow (VR pl) (VR p)) with
      (let! r := Rat_Pow2 pl p in match r with Some w => eret w | None =>
         let! u := uptype rnd f64 Exact (VR pl) in match u with None => efail | Some l' => let! w := uptype rnd f64 Exact (VR p) in
           match w with Some r' => arith2_loop 0 Exact Pow l' r' | None => epanic end end end) in E.
    unfold ebind at 1 in E. destruct (Rat_Pow2 pl p h) as [o h1] eqn:E1.
    destruct (Rat_Pow2_negates _ _ _ _ _ _ Hp Nq Hq E1) as [K _].
    destruct o as [[w|]| |].
    - injection E as <- <-. exact K.
    - cbn in E. injection E as <- <-. exact K.
    - injection E as <- <-. exact K.
    - injection E as <- <-. exact K.
  Qed.
  Lemma arith2_negates l p x q h res h' :
    stands h l x -> znth h p = Some (CRat q) -> Qred q = q -> (q < 0)%Q ->
    arith2 Exact Pow l (VR p) h = (res, h') -> znth h' p = Some (CRat (- q)).
  Proof.
    intros Hl Hp Nq Hq E. unfold M_Big.arith2 in E. destruct Hl as [b|n R|p1 n P1|p1 q1 P1 N1]; cbn [same_type] in E.
    - rewrite (ebind_ok _ _ _ None h) in E by reflexivity.
      rewrite (ebind_ok _ _ _ (VR (zlen (h ++ [CInt (bool2int b)])), VR p) ((h ++ [CInt (bool2int b)]) ++ [CRat (Qred (inject_Z (bool2int b)))])) in E.
      2:{ unfold M_Big.SameType. cbn [same_type]. cbn [M_Big.import].
          rewrite (ebind_ok _ _ _ (VI (zlen h)) (h ++ [CInt (bool2int b)])) by reflexivity.
          rewrite (ebind_ok _ _ _ (VR p) (h ++ [CInt (bool2int b)])) by reflexivity. cbn [class_of]. change (0 <? 1) with true. cbv iota.
          rewrite (ebind_ok _ _ _ _ _ (up_int rnd f64 _ _ (bool2int b) (znth_last h (CInt (bool2int b)) []))). reflexivity. }
      cbn [class_of] in E. change (Z.to_nat (2 - 1)) with 1%nat in E. eapply loop_negates; [|exact Nq|exact Hq|exact E]. do 2 apply znth_old. exact Hp.
    - rewrite (ebind_ok _ _ _ None h) in E by reflexivity.
      rewrite (ebind_ok _ _ _ (VR (zlen (h ++ [CInt n])), VR p) ((h ++ [CInt n]) ++ [CRat (Qred (inject_Z n))])) in E.
      2:{ unfold M_Big.SameType. cbn [same_type]. cbn [M_Big.import].
          rewrite (ebind_ok _ _ _ (VI (zlen h)) (h ++ [CInt n])) by reflexivity.
          rewrite (ebind_ok _ _ _ (VR p) (h ++ [CInt n])) by reflexivity. cbn [class_of]. change (0 <? 1) with true. cbv iota.
          rewrite (ebind_ok _ _ _ _ _ (up_int rnd f64 _ _ n (znth_last h (CInt n) []))). reflexivity. }
      cbn [class_of] in E. change (Z.to_nat (2 - 1)) with 1%nat in E. eapply loop_negates; [|exact Nq|exact Hq|exact E]. do 2 apply znth_old. exact Hp.
    - rewrite (ebind_ok _ _ _ None h) in E by reflexivity.
      rewrite (ebind_ok _ _ _ (VR (zlen h), VR p) (h ++ [CRat (Qred (inject_Z n))])) in E.
      2:{ unfold M_Big.SameType. cbn [same_type]. cbn [M_Big.import].
          rewrite (ebind_ok _ _ _ (VI p1) h) by reflexivity.
          rewrite (ebind_ok _ _ _ (VR p) h) by reflexivity. cbn [class_of]. change (0 <? 1) with true. cbv iota.
          rewrite (ebind_ok _ _ _ _ _ (up_int rnd f64 _ _ n P1)). reflexivity. }
      cbn [class_of] in E. change (Z.to_nat (2 - 1)) with 1%nat in E. eapply loop_negates; [|exact Nq|exact Hq|exact E]. apply znth_old. exact Hp.
    - unfold ebind at 1 in E. change (call2 Pow (VR p1) (VR p) h) with (Rat_Pow2 p1 p h) in E. destruct (Rat_Pow2 p1 p h) as [o h1] eqn:E1.
      destruct (Rat_Pow2_negates _ _ _ _ _ _ Hp Nq Hq E1) as [K _].
      destruct o as [[w|]| |]; try (injection E as <- <-; exact K).
      rewrite (ebind_ok _ _ _ (VR p1, VR p) h1) in E by reflexivity. cbn [class_of] in E. change (Z.to_nat (2 - 1)) with 1%nat in E.
      assert (X : exponent_ok h1 Pow (VR p)).
      { intros _ p2 EP. injection EP as <-. right. exists (- q)%Q. split; [exact K|]. unfold Qlt in Hq. cbn in *. lia. }
      apply (proj1 (kept_loop rnd sqt f64 flog fpow h1 1 Exact Pow (VR p1) (VR p) X h1 res h' (extends_refl h1) E)). exact K.
  Qed.
End BIG2.

(* arithmetic used for quotients of small integers *)
Lemma quot_abs_le : forall a b, b <> 0 -> Z.abs (Z.quot a b) <= Z.abs a.
Proof.
  intros a b B0. rewrite <- (Z.quot_abs a b B0). destruct (Z.eq_dec (Z.abs b) 1) as [->|N]; [rewrite Z.quot_1_r; lia|].
  apply Z.quot_le_upper_bound; [lia|]. rewrite <- (Z.mul_1_l (Z.abs a)) at 1. apply Z.mul_le_mono_nonneg_r; lia.
Qed.
Lemma quot_fits : forall a b, fits a -> b <> 0 -> ~ (a = minint /\ b = -1) -> fits (Z.quot a b).
Proof.
  intros a b FA B0 NM. pose proof (quot_abs_le a b B0) as QA.
  destruct (Z.eq_dec a minint) as [->|NA].
  - unfold fits, minint in *. destruct (Z.eq_dec b 1) as [->|N1]; [rewrite Z.quot_1_r; lia|].
    destruct (Z.eq_dec b (-1)) as [->|N2]; [exfalso; apply NM; split; reflexivity|].
    assert (Z.abs (Z.quot (- 2 ^ 63) b) <= 2 ^ 62); [|lia].
    rewrite <- (Z.quot_abs _ b B0). apply Z.quot_le_upper_bound; lia.
  - unfold fits, minint in *. lia.
Qed.
Lemma quot_mul_fits : forall a b, fits a -> b <> 0 -> fits (Z.quot a b * b).
Proof.
  intros a b FA B0. pose proof (Z.mul_quot_le a b) as P1. pose proof (Z.mul_quot_ge a b) as P2. rewrite Z.mul_comm.
  unfold fits in *. generalize dependent (b * Z.quot a b). intros z P1 P2. destruct (Z_lt_le_dec a 0) as [N|N]; [assert (a <= 0) by lia; specialize (P2 H B0)|specialize (P1 N B0)]; lia.
Qed.
