(* P_Big3.v -- the values computed in the exact tower. *)
From Coq Require Import String QArith Qabs Qround Lia.
From Verif Require Import Base M_Array S_Array P_Array Eff M_Number M_Big S_Big P_Big P_Big2.
Open Scope Z_scope.

Lemma extends_refl h : extends h h.
Proof. split; [lia|auto]. Qed.
Lemma extends_trans a b c : extends a b -> extends b c -> extends a c.
Proof. intros [L1 X1] [L2 X2]. split; [lia|auto]. Qed.
Lemma extends_app h l : extends h (h ++ l).
Proof. split; [rewrite zlen_app; unfold zlen; lia|]. intros p c Hp. rewrite znth_app_l; [exact Hp|]. eapply znth_some_range; exact Hp. Qed.
Lemma stands_extends h h' v q : extends h h' -> stands h v q -> stands h' v q.
Proof. intros [_ X] HS. destruct HS; constructor; auto. Qed.
Lemma stands_cases h v q : stands h v q ->
  (exists b : bool, VB b = v /\ inject_Z (if b then 1 else 0) = q) \/ (exists n, minint <= n <= maxint /\ VS n = v /\ inject_Z n = q)
  \/ (exists p n, znth h p = Some (CInt n) /\ VI p = v /\ inject_Z n = q) \/ (exists p q1, znth h p = Some (CRat q1) /\ Qred q1 = q1 /\ VR p = v /\ q1 = q).
Proof. intros [b|n R|p n P|p q1 P N]; [left|right; left|right; right; left|right; right; right]; eauto 8. Qed.
Lemma znth_old {A} (h : list A) l p c : znth h p = Some c -> znth (h ++ l) p = Some c.
Proof. intros Hp. rewrite znth_app_l; [exact Hp|]. eapply znth_some_range; exact Hp. Qed.
Lemma znth_last {A} (h : list A) c l : znth (h ++ c :: l) (zlen h) = Some c.
Proof. rewrite znth_app_r by lia. rewrite Z.sub_diag. reflexivity. Qed.
Lemma set_last h c c' : set (zlen h) c' (h ++ [c]) = (Ok tt, h ++ [c']).
Proof.
  unfold set. rewrite znth_last. f_equal. apply znth_ext.
  - rewrite zlen_zupd, !zlen_app. reflexivity.
  - intros i Hi. rewrite zlen_zupd, zlen_app in Hi. change (zlen [c]) with 1 in Hi. destruct (Z.eq_dec i (zlen h)) as [->|Hne].
    + rewrite znth_zupd_same, znth_last; [reflexivity|]. rewrite zlen_app. change (zlen [c]) with 1. pose proof (zlen_nonneg h). lia.
    + rewrite znth_zupd_other by lia. rewrite !znth_app_l by lia. reflexivity.
Qed.
Lemma geti_at h p z : znth h p = Some (CInt z) -> geti p h = (Ok z, h).
Proof. intros E. unfold geti. rewrite E. reflexivity. Qed.
Lemma getr_at h p z : znth h p = Some (CRat z) -> getr p h = (Ok z, h).
Proof. intros E. unfold getr. rewrite E. reflexivity. Qed.
Lemma ebind_ok {A B} (m : eff heap A) (k : A -> eff heap B) h a h' : m h = (Ok a, h') -> ebind m k h = k a h'.
Proof. intros E. unfold ebind. rewrite E. reflexivity. Qed.

Section BIG.
  Context (rnd : Z -> Q -> fl) (sqt : Z -> Q -> fl) (f64 : fl -> fl).
  Context (fexp flog : flt -> flt) (fpow : flt -> flt -> flt).
  Notation call1 := (call1 rnd sqt f64 fexp flog). Notation call2 := (call2 rnd f64 flog fpow).
  Notation import := (import rnd f64). Notation uptype := (uptype rnd f64). Notation SameType := (SameType rnd f64).
  Notation arith1 := (arith1 rnd sqt f64 fexp flog). Notation arith2 := (arith2 rnd f64 flog fpow).
  Notation arith1_loop := (arith1_loop rnd sqt f64 fexp flog). Notation arith2_loop := (arith2_loop rnd f64 flog fpow).

  Lemma up_int h p a : znth h p = Some (CInt a) -> uptype Exact (VI p) h = (Ok (Some (VR (zlen h))), h ++ [CRat (Qred (inject_Z a))]).
  Proof.
    intros E. cbn [M_Big.uptype]. unfold newR. rewrite (ebind_ok _ _ _ (zlen h) (h ++ [CRat 0])) by reflexivity.
    rewrite (ebind_ok _ _ _ a (h ++ [CRat 0])) by (apply geti_at, znth_old, E).
    rewrite (ebind_ok _ _ _ tt (h ++ [CRat (Qred (inject_Z a))])) by apply set_last. reflexivity.
  Qed.
  Lemma up_small h n : uptype Exact (VS n) h = (Ok (Some (VI (zlen h))), h ++ [CInt n]).
  Proof. reflexivity. Qed.

  (* the value of a computation that may pass *)
  Definition maybe (m : outcome (option bval) * heap) (z : Q) : Prop :=
    exists oo h2, m = (Ok oo, h2) /\ forall v, oo = Some v -> exists q', stands h2 v q' /\ (q' == z)%Q.
  Definition surely (m : outcome (option bval) * heap) (z : Q) : Prop :=
    exists v h2, m = (Ok (Some v), h2) /\ exists q', stands h2 v q' /\ (q' == z)%Q.
  Definition finally (m : outcome bval * heap) (z : Q) : Prop :=
    exists v h2, m = (Ok v, h2) /\ exists q', stands h2 v q' /\ (q' == z)%Q.

  Section TWO.
    Context (o : op2) (h0 : heap) (l0 r0 : bval) (x y z : Q).
    Context (HB : forall a b h, l0 = VB a -> r0 = VB b -> exists oo, call2 o (VB a) (VB b) h = (Ok oo, h) /\
                  forall v, oo = Some v -> exists q', stands h v q' /\ (q' == z)%Q).
    Context (HS : forall a b h1, extends h0 h1 -> small l0 -> small r0 -> minint <= a <= maxint -> minint <= b <= maxint ->
                  (inject_Z a == x)%Q -> (inject_Z b == y)%Q -> maybe (call2 o (VS a) (VS b) h1) z).
    Context (HI : forall p q a b h1, extends h0 h1 -> znth h1 p = Some (CInt a) -> znth h1 q = Some (CInt b) ->
                  (inject_Z a == x)%Q -> (inject_Z b == y)%Q -> maybe (call2 o (VI p) (VI q) h1) z).
    Context (HR : forall p q a b h1, extends h0 h1 -> znth h1 p = Some (CRat a) -> znth h1 q = Some (CRat b) ->
                  Qred a = a -> Qred b = b -> (r0 = VR q \/ p <> q) ->
                  (a == x)%Q -> (b == y)%Q -> surely (call2 o (VR p) (VR q) h1) z).
    Context (XO : exponent_ok h0 o r0).

    Lemma loop_rat k p q a b h1 : extends h0 h1 -> znth h1 p = Some (CRat a) -> znth h1 q = Some (CRat b) ->
        Qred a = a -> Qred b = b -> (r0 = VR q \/ p <> q) -> (a == x)%Q -> (b == y)%Q ->
        finally (arith2_loop (S k) Exact o (VR p) (VR q) h1) z.
    Proof.
      intros. destruct (HR p q a b h1) as (v & h2 & E & V); auto.
      exists v, h2. split; [|exact V]. cbn [M_Big.arith2_loop]. rewrite (ebind_ok _ _ _ _ _ E). reflexivity.
    Qed.
    Lemma ext_call2 l r oo h1 h2 : extends h0 h1 -> exponent_ok h0 o r -> call2 o l r h1 = (oo, h2) -> extends h0 h2.
    Proof. intros X K E. exact (proj1 (kept_call2 rnd sqt f64 flog fpow h0 o l r K h1 oo h2 X E)). Qed.
    Lemma xo_notrat r : (forall p, r <> VR p) -> exponent_ok h0 o r.
    Proof. intros HH _ p E. exfalso. exact (HH p E). Qed.

    Lemma loop_int k p q a b h1 : extends h0 h1 -> znth h1 p = Some (CInt a) -> znth h1 q = Some (CInt b) ->
        (exists g, znth g p = Some (CInt a) /\ znth g q = Some (CInt b) /\ extends g h1 /\ forall h2 oo, call2 o (VI p) (VI q) h1 = (oo, h2) -> extends g h2) ->
        (inject_Z a == x)%Q -> (inject_Z b == y)%Q ->
        finally (arith2_loop (S (S k)) Exact o (VI p) (VI q) h1) z.
    Proof.
      intros X Hp Hq (g & Gp & Gq & _ & Gx) Ha Hb. destruct (HI p q a b h1) as (oo & h2 & E & V); auto.
      change (arith2_loop (S (S k)) Exact o (VI p) (VI q)) with
        (let! res := call2 o (VI p) (VI q) in
         match res with
         | Some w => eret w
         | None => let! u := uptype Exact (VI p) in
                   match u with None => efail | Some l' => let! w := uptype Exact (VI q) in
                     match w with Some r' => arith2_loop (S k) Exact o l' r' | None => epanic end end
         end).
      rewrite (ebind_ok _ _ _ _ _ E). destruct oo as [v|].
      { exists v, h2. split; [reflexivity|]. exact (V v eq_refl). }
      assert (X2 : extends h0 h2) by (eapply ext_call2; [exact X| |exact E]; apply xo_notrat; discriminate).
      pose proof (Gx _ _ E) as [_ G2].
      rewrite (ebind_ok _ _ _ _ _ (up_int h2 p a (G2 _ _ Gp))).
      rewrite (ebind_ok _ _ _ _ _ (up_int _ q b (znth_old _ _ _ _ (G2 _ _ Gq)))).
      pose proof (zlen_nonneg h2).
      apply (loop_rat k _ _ (Qred (inject_Z a)) (Qred (inject_Z b))).
      - eapply extends_trans; [exact X2|]. eapply extends_trans; apply extends_app.
      - apply znth_old. apply znth_last.
      - apply znth_last.
      - apply Qred_complete, Qred_correct.
      - apply Qred_complete, Qred_correct.
      - right. rewrite zlen_app. match goal with |- context [zlen [?c]] => change (zlen [c]) with 1 end. lia.
      - rewrite Qred_correct. exact Ha.
      - rewrite Qred_correct. exact Hb.
    Qed.
    (* operands in the heap survive a call *)
    Lemma survive p q a b h1 : extends h0 h1 -> znth h1 p = Some (CInt a) -> znth h1 q = Some (CInt b) ->
      exists g, znth g p = Some (CInt a) /\ znth g q = Some (CInt b) /\ extends g h1 /\ forall h2 oo, call2 o (VI p) (VI q) h1 = (oo, h2) -> extends g h2.
    Proof.
      intros X Hp Hq. exists h1. split; [exact Hp|]. split; [exact Hq|]. split; [apply extends_refl|]. intros h2 oo E.
      refine (proj1 (kept_call2 rnd sqt f64 flog fpow h1 o (VI p) (VI q) _ h1 oo h2 (extends_refl h1) E)). intros _ w HH. discriminate HH.
    Qed.
    Lemma loop_small k a b h1 : extends h0 h1 -> small l0 -> small r0 -> minint <= a <= maxint -> minint <= b <= maxint ->
        (inject_Z a == x)%Q -> (inject_Z b == y)%Q ->
        finally (arith2_loop (S (S (S k))) Exact o (VS a) (VS b) h1) z.
    Proof.
      intros X S1 S2 Ra Rb Ha Hb. destruct (HS a b h1) as (oo & h2 & E & V); auto.
      change (arith2_loop (S (S (S k))) Exact o (VS a) (VS b)) with
        (let! res := call2 o (VS a) (VS b) in
         match res with
         | Some w => eret w
         | None => let! u := uptype Exact (VS a) in
                   match u with None => efail | Some l' => let! w := uptype Exact (VS b) in
                     match w with Some r' => arith2_loop (S (S k)) Exact o l' r' | None => epanic end end
         end).
      rewrite (ebind_ok _ _ _ _ _ E). destruct oo as [v|].
      { exists v, h2. split; [reflexivity|]. exact (V v eq_refl). }
      assert (X2 : extends h0 h2) by (eapply ext_call2; [exact X| |exact E]; apply xo_notrat; discriminate).
      rewrite (ebind_ok _ _ _ _ _ (up_small h2 a)). rewrite (ebind_ok _ _ _ _ _ (up_small _ b)).
      pose proof (zlen_nonneg h2).
      assert (X3 : extends h0 ((h2 ++ [CInt a]) ++ [CInt b])) by (eapply extends_trans; [exact X2|]; eapply extends_trans; apply extends_app).
      apply (loop_int k _ _ a b); auto.
      - apply znth_old, znth_last.
      - apply znth_last.
      - apply survive; auto; [apply znth_old, znth_last|apply znth_last].
    Qed.

    Ltac clo := first [ exact Logic.I | assumption | apply znth_last | apply znth_old; assumption
      | match goal with |- minint <= bool2int ?b <= maxint => unfold minint, maxint; destruct b; cbn; lia end
      | match goal with E : _ = l0 |- small l0 => rewrite <- E; exact Logic.I end
      | match goal with E : _ = r0 |- small r0 => rewrite <- E; exact Logic.I end
      | match goal with E : _ = r0 |- r0 = _ \/ _ => left; symmetry; exact E end
      | match goal with E : _ = x |- (_ == x)%Q => rewrite <- E; first [reflexivity | match goal with b : bool |- _ => destruct b; reflexivity end] end
      | match goal with E : _ = y |- (_ == y)%Q => rewrite <- E; first [reflexivity | match goal with b : bool |- _ => destruct b; reflexivity end] end ].
    Lemma arith2_value_b : stands h0 l0 x -> stands h0 r0 y -> finally (arith2 Exact o l0 r0 h0) z.
    Proof.
      intros Hl Hr. unfold M_Big.arith2.
      assert (PB : (0 < 1)%Z) by lia.
      (* after the direct attempt *)
      assert (REST : forall h1, extends h0 h1 ->
        finally ((let! (l, r) := SameType Exact l0 r0 in match class_of Exact l with Some c => arith2_loop (Z.to_nat (2 - c)) Exact o l r | None => efail end) h1) z).
      { intros h1 X. pose proof (stands_extends _ _ _ _ X Hl) as Hl1. pose proof (stands_extends _ _ _ _ X Hr) as Hr1.
        pose proof (zlen_nonneg h1).
        destruct (stands_cases _ _ _ Hl1) as [(b1 & El & Ex)|[(n1 & R1 & El & Ex)|[(p1 & n1 & P1 & El & Ex)|(p1 & q1 & P1 & N1 & El & Ex)]]];
          destruct (stands_cases _ _ _ Hr1) as [(b2 & Er & Ey)|[(n2 & R2 & Er & Ey)|[(p2 & n2 & P2 & Er & Ey)|(p2 & q2 & P2 & N2 & Er & Ey)]]]; (rewrite <- El || idtac); (rewrite <- Er || idtac).
        - (* bool bool *)
          rewrite (ebind_ok _ _ _ (VB b1, VB b2) h1) by reflexivity. cbn [class_of].
          change (Z.to_nat (2 - -2)) with 4%nat.
          change (arith2_loop 4 Exact o (VB b1) (VB b2)) with
            (let! res := call2 o (VB b1) (VB b2) in
             match res with Some w => eret w | None => let! u := uptype Exact (VB b1) in
                   match u with None => efail | Some l' => let! w := uptype Exact (VB b2) in
                     match w with Some r' => arith2_loop 3 Exact o l' r' | None => epanic end end end).
          destruct (HB b1 b2 h1 (eq_sym El) (eq_sym Er)) as (oo & EB & VB_). rewrite (ebind_ok _ _ _ _ _ EB).
          destruct oo as [w|]; [exists w, h1; split; [reflexivity|exact (VB_ w eq_refl)]|].
          rewrite (ebind_ok _ _ _ (Some (VS (bool2int b1))) h1) by reflexivity.
          rewrite (ebind_ok _ _ _ (Some (VS (bool2int b2))) h1) by reflexivity.
          apply (loop_small 0); clo.
        - (* bool small *)
          rewrite (ebind_ok _ _ _ (VS (bool2int b1), VS n2) h1) by reflexivity. cbn [class_of]. change (Z.to_nat (2 - -1)) with 3%nat.
          apply (loop_small 0); clo.
        - (* bool int *)
          rewrite (ebind_ok _ _ _ (VI (zlen h1), VI p2) (h1 ++ [CInt (bool2int b1)])) by reflexivity. cbn [class_of]. change (Z.to_nat (2 - 0)) with 2%nat.
          assert (X3 : extends h0 (h1 ++ [CInt (bool2int b1)])) by (eapply extends_trans; [exact X|apply extends_app]).
          apply (loop_int 0 _ _ (bool2int b1) n2); try apply survive; clo.
        - (* bool rat *)
          rewrite (ebind_ok _ _ _ (VR (zlen (h1 ++ [CInt (bool2int b1)])), VR p2) ((h1 ++ [CInt (bool2int b1)]) ++ [CRat (Qred (inject_Z (bool2int b1)))])).
          2:{ unfold M_Big.SameType. cbn [same_type]. cbn [M_Big.import].
              rewrite (ebind_ok _ _ _ (VI (zlen h1)) (h1 ++ [CInt (bool2int b1)])) by reflexivity.
              rewrite (ebind_ok _ _ _ (VR p2) (h1 ++ [CInt (bool2int b1)])) by reflexivity. cbn [class_of]. change (0 <? 1) with true. cbv iota.
              rewrite (ebind_ok _ _ _ _ _ (up_int _ _ (bool2int b1) (znth_last h1 (CInt (bool2int b1)) []))). reflexivity. }
          cbn [class_of]. change (Z.to_nat (2 - 1)) with 1%nat.
          apply (loop_rat 0 _ _ (Qred (inject_Z (bool2int b1))) q2).
          + eapply extends_trans; [exact X|]. eapply extends_trans; apply extends_app.
          + apply znth_last.
          + do 2 apply znth_old. assumption.
          + apply Qred_complete, Qred_correct.
          + assumption.
          + left; symmetry; exact Er.
          + rewrite Qred_correct; clo.
          + clo.
        - rewrite (ebind_ok _ _ _ (VS n1, VS (bool2int b2)) h1) by reflexivity. cbn [class_of]. change (Z.to_nat (2 - -1)) with 3%nat.
          apply (loop_small 0); clo.
        - rewrite (ebind_ok _ _ _ (VS n1, VS n2) h1) by reflexivity. cbn [class_of]. change (Z.to_nat (2 - -1)) with 3%nat.
          apply (loop_small 0); clo.
        - rewrite (ebind_ok _ _ _ (VI (zlen h1), VI p2) (h1 ++ [CInt n1])) by reflexivity. cbn [class_of]. change (Z.to_nat (2 - 0)) with 2%nat.
          assert (X3 : extends h0 (h1 ++ [CInt n1])) by (eapply extends_trans; [exact X|apply extends_app]).
          apply (loop_int 0 _ _ n1 n2); try apply survive; clo.
        - rewrite (ebind_ok _ _ _ (VR (zlen (h1 ++ [CInt n1])), VR p2) ((h1 ++ [CInt n1]) ++ [CRat (Qred (inject_Z n1))])).
          2:{ unfold M_Big.SameType. cbn [same_type]. cbn [M_Big.import].
              rewrite (ebind_ok _ _ _ (VI (zlen h1)) (h1 ++ [CInt n1])) by reflexivity.
              rewrite (ebind_ok _ _ _ (VR p2) (h1 ++ [CInt n1])) by reflexivity. cbn [class_of]. change (0 <? 1) with true. cbv iota.
              rewrite (ebind_ok _ _ _ _ _ (up_int _ _ n1 (znth_last h1 (CInt n1) []))). reflexivity. }
          cbn [class_of]. change (Z.to_nat (2 - 1)) with 1%nat.
          apply (loop_rat 0 _ _ (Qred (inject_Z n1)) q2).
          + eapply extends_trans; [exact X|]. eapply extends_trans; apply extends_app.
          + apply znth_last.
          + do 2 apply znth_old. assumption.
          + apply Qred_complete, Qred_correct.
          + assumption.
          + left; symmetry; exact Er.
          + rewrite Qred_correct; clo.
          + clo.
        - (* int bool *)
          rewrite (ebind_ok _ _ _ (VI p1, VI (zlen h1)) (h1 ++ [CInt (bool2int b2)])) by reflexivity. cbn [class_of]. change (Z.to_nat (2 - 0)) with 2%nat.
          assert (X3 : extends h0 (h1 ++ [CInt (bool2int b2)])) by (eapply extends_trans; [exact X|apply extends_app]).
          apply (loop_int 0 _ _ n1 (bool2int b2)); try apply survive; clo.
        - rewrite (ebind_ok _ _ _ (VI p1, VI (zlen h1)) (h1 ++ [CInt n2])) by reflexivity. cbn [class_of]. change (Z.to_nat (2 - 0)) with 2%nat.
          assert (X3 : extends h0 (h1 ++ [CInt n2])) by (eapply extends_trans; [exact X|apply extends_app]).
          apply (loop_int 0 _ _ n1 n2); try apply survive; clo.
        - rewrite (ebind_ok _ _ _ (VI p1, VI p2) h1) by reflexivity. cbn [class_of]. change (Z.to_nat (2 - 0)) with 2%nat.
          apply (loop_int 0 _ _ n1 n2); try apply survive; clo.
        - (* int rat *)
          rewrite (ebind_ok _ _ _ (VR (zlen h1), VR p2) (h1 ++ [CRat (Qred (inject_Z n1))])).
          2:{ unfold M_Big.SameType. cbn [same_type]. cbn [M_Big.import].
              rewrite (ebind_ok _ _ _ (VI p1) h1) by reflexivity.
              rewrite (ebind_ok _ _ _ (VR p2) h1) by reflexivity. cbn [class_of]. change (0 <? 1) with true. cbv iota.
              rewrite (ebind_ok _ _ _ _ _ (up_int _ _ n1 P1)). reflexivity. }
          cbn [class_of]. change (Z.to_nat (2 - 1)) with 1%nat.
          apply (loop_rat 0 _ _ (Qred (inject_Z n1)) q2).
          + eapply extends_trans; [exact X|]. apply extends_app.
          + apply znth_last.
          + apply znth_old. assumption.
          + apply Qred_complete, Qred_correct.
          + assumption.
          + left; symmetry; exact Er.
          + rewrite Qred_correct; clo.
          + clo.
        - (* rat bool *)
          rewrite (ebind_ok _ _ _ (VR p1, VR (zlen (h1 ++ [CInt (bool2int b2)]))) ((h1 ++ [CInt (bool2int b2)]) ++ [CRat (Qred (inject_Z (bool2int b2)))])).
          2:{ unfold M_Big.SameType. cbn [same_type]. cbn [M_Big.import].
              rewrite (ebind_ok _ _ _ (VR p1) h1) by reflexivity.
              rewrite (ebind_ok _ _ _ (VI (zlen h1)) (h1 ++ [CInt (bool2int b2)])) by reflexivity. cbn [class_of]. change (1 <? 0) with false. change (0 <? 1) with true. cbv iota.
              rewrite (ebind_ok _ _ _ _ _ (up_int _ _ (bool2int b2) (znth_last h1 (CInt (bool2int b2)) []))). reflexivity. }
          cbn [class_of]. change (Z.to_nat (2 - 1)) with 1%nat.
          apply (loop_rat 0 _ _ q1 (Qred (inject_Z (bool2int b2)))).
          + eapply extends_trans; [exact X|]. eapply extends_trans; apply extends_app.
          + do 2 apply znth_old. assumption.
          + apply znth_last.
          + assumption.
          + apply Qred_complete, Qred_correct.
          + right. pose proof (znth_some_range _ _ _ P1). rewrite zlen_app. unfold zlen in *. cbn. lia.
          + clo.
          + rewrite Qred_correct; clo.
        - rewrite (ebind_ok _ _ _ (VR p1, VR (zlen (h1 ++ [CInt n2]))) ((h1 ++ [CInt n2]) ++ [CRat (Qred (inject_Z n2))])).
          2:{ unfold M_Big.SameType. cbn [same_type]. cbn [M_Big.import].
              rewrite (ebind_ok _ _ _ (VR p1) h1) by reflexivity.
              rewrite (ebind_ok _ _ _ (VI (zlen h1)) (h1 ++ [CInt n2])) by reflexivity. cbn [class_of]. change (1 <? 0) with false. change (0 <? 1) with true. cbv iota.
              rewrite (ebind_ok _ _ _ _ _ (up_int _ _ n2 (znth_last h1 (CInt n2) []))). reflexivity. }
          cbn [class_of]. change (Z.to_nat (2 - 1)) with 1%nat.
          apply (loop_rat 0 _ _ q1 (Qred (inject_Z n2))).
          + eapply extends_trans; [exact X|]. eapply extends_trans; apply extends_app.
          + do 2 apply znth_old. assumption.
          + apply znth_last.
          + assumption.
          + apply Qred_complete, Qred_correct.
          + right. pose proof (znth_some_range _ _ _ P1). rewrite zlen_app. unfold zlen in *. cbn. lia.
          + clo.
          + rewrite Qred_correct; clo.
        - rewrite (ebind_ok _ _ _ (VR p1, VR (zlen h1)) (h1 ++ [CRat (Qred (inject_Z n2))])).
          2:{ unfold M_Big.SameType. cbn [same_type]. cbn [M_Big.import].
              rewrite (ebind_ok _ _ _ (VR p1) h1) by reflexivity.
              rewrite (ebind_ok _ _ _ (VI p2) h1) by reflexivity. cbn [class_of]. change (1 <? 0) with false. change (0 <? 1) with true. cbv iota.
              rewrite (ebind_ok _ _ _ _ _ (up_int _ _ n2 P2)). reflexivity. }
          cbn [class_of]. change (Z.to_nat (2 - 1)) with 1%nat.
          apply (loop_rat 0 _ _ q1 (Qred (inject_Z n2))).
          + eapply extends_trans; [exact X|]. apply extends_app.
          + apply znth_old. assumption.
          + apply znth_last.
          + assumption.
          + apply Qred_complete, Qred_correct.
          + right. pose proof (znth_some_range _ _ _ P1). lia.
          + clo.
          + rewrite Qred_correct; clo.
        - rewrite (ebind_ok _ _ _ (VR p1, VR p2) h1) by reflexivity. cbn [class_of]. change (Z.to_nat (2 - 1)) with 1%nat.
          apply (loop_rat 0 _ _ q1 q2); clo. }
      destruct (same_type l0 r0) eqn:ST.
      2:{ rewrite (ebind_ok _ _ _ None h0) by reflexivity. apply REST, extends_refl. }
      assert (M : maybe (call2 o l0 r0 h0) z).
      { pose proof (extends_refl h0) as X0.
        destruct (stands_cases _ _ _ Hl) as [(b1 & El & Ex)|[(n1 & R1 & El & Ex)|[(p1 & n1 & P1 & El & Ex)|(p1 & q1 & P1 & N1 & El & Ex)]]]; destruct (stands_cases _ _ _ Hr) as [(b2 & Er & Ey)|[(n2 & R2 & Er & Ey)|[(p2 & n2 & P2 & Er & Ey)|(p2 & q2 & P2 & N2 & Er & Ey)]]]; (rewrite <- El || idtac); (rewrite <- Er || idtac); (rewrite <- El in ST || idtac); (rewrite <- Er in ST || idtac); cbn in ST; try discriminate ST.
        - destruct (HB b1 b2 h0 (eq_sym El) (eq_sym Er)) as (oo & EB & VB_). exists oo, h0. split; [exact EB|exact VB_].
        - apply HS; clo.
        - apply (HI _ _ n1 n2); clo.
        - destruct (HR p1 p2 q1 q2 h0) as (v & h2 & E & V); try solve [clo]. exists (Some v), h2. split; [exact E|]. intros w Ew; injection Ew as <-; exact V. }
      destruct M as (oo & h2 & E & V). rewrite (ebind_ok _ _ _ _ _ E). destruct oo as [v|].
      { exists v, h2. split; [reflexivity|]. exact (V v eq_refl). }
      apply REST. eapply ext_call2; [apply extends_refl|exact XO|exact E].
    Qed.
  End TWO.
  Lemma arith2_value o h0 l0 r0 x y z :
    (forall a b h, call2 o (VB a) (VB b) h = (Ok None, h)) ->
    (forall a b h1, extends h0 h1 -> small l0 -> small r0 -> minint <= a <= maxint -> minint <= b <= maxint ->
       (inject_Z a == x)%Q -> (inject_Z b == y)%Q -> maybe (call2 o (VS a) (VS b) h1) z) ->
    (forall p q a b h1, extends h0 h1 -> znth h1 p = Some (CInt a) -> znth h1 q = Some (CInt b) ->
       (inject_Z a == x)%Q -> (inject_Z b == y)%Q -> maybe (call2 o (VI p) (VI q) h1) z) ->
    (forall p q a b h1, extends h0 h1 -> znth h1 p = Some (CRat a) -> znth h1 q = Some (CRat b) ->
       Qred a = a -> Qred b = b -> (r0 = VR q \/ p <> q) ->
       (a == x)%Q -> (b == y)%Q -> surely (call2 o (VR p) (VR q) h1) z) ->
    exponent_ok h0 o r0 ->
    stands h0 l0 x -> stands h0 r0 y -> finally (arith2 Exact o l0 r0 h0) z.
  Proof.
    intros HB HS HI HR XO. apply arith2_value_b; auto. intros a b h _ _. exists None. split; [apply HB|discriminate].
  Qed.
End BIG.
