(* P_Big6.v -- values computed with floating point numbers: running the methods
   of Float and Complex on a heap [h ++ t], where t are the new cells. *)
From Coq Require Import String QArith Qabs Qround Lia.
From Verif Require Import Base M_Array S_Array P_Array Eff M_Number M_Big S_Big P_Big P_Big2 P_Big3 P_Big4.
Open Scope Z_scope.

Lemma getf_at h p f : znth h p = Some (CFlt f) -> getf p h = (Ok f, h).
Proof. intros E. unfold getf. rewrite E. reflexivity. Qed.
Lemma znth_new {A} (h t : list A) k : 0 <= k -> znth (h ++ t) (zlen h + k) = znth t k.
Proof. intros Hk. rewrite znth_app_r by lia. f_equal. lia. Qed.
Lemma zupd_new {A} (h t : list A) k c : 0 <= k < zlen t -> zupd (h ++ t) (zlen h + k) c = h ++ zupd t k c.
Proof.
  intros Hk. pose proof (zlen_nonneg h). apply znth_ext.
  - rewrite zlen_zupd, !zlen_app, zlen_zupd. reflexivity.
  - intros i Hi. rewrite zlen_zupd, zlen_app in Hi. destruct (Z_lt_le_dec i (zlen h)) as [L|L].
    + rewrite znth_zupd_other by lia. rewrite !znth_app_l by lia. reflexivity.
    + rewrite (znth_app_r h (zupd t k c)) by lia. destruct (Z.eq_dec i (zlen h + k)) as [->|N].
      * rewrite znth_zupd_same by (rewrite zlen_app; lia). replace (zlen h + k - zlen h) with k by lia. rewrite znth_zupd_same by lia. reflexivity.
      * rewrite znth_zupd_other by lia. rewrite znth_app_r by lia. rewrite znth_zupd_other by lia. reflexivity.
Qed.
Lemma run_new_t h t c : new c (h ++ t) = (Ok (zlen h + zlen t), h ++ (t ++ [c])).
Proof. unfold new. rewrite zlen_app, <- app_assoc. reflexivity. Qed.
Lemma run_getf_t h t k f : znth t k = Some (CFlt f) -> getf (zlen h + k) (h ++ t) = (Ok f, h ++ t).
Proof. intros E. apply getf_at. rewrite znth_new by (eapply znth_some_range; exact E). exact E. Qed.
Lemma run_set_t h t k c c0 : znth t k = Some c0 -> set (zlen h + k) c (h ++ t) = (Ok tt, h ++ zupd t k c).
Proof.
  intros E. pose proof (znth_some_range _ _ _ E). unfold set. rewrite znth_new by lia. rewrite E. rewrite zupd_new by lia. reflexivity.
Qed.
Section RUN.
  Context (rnd : Z -> Q -> fl).
  (* z a new cell *)
  Lemma run_fop h t k f c x y a b v : znth t k = Some (CFlt c) -> znth (h ++ t) x = Some (CFlt a) -> znth (h ++ t) y = Some (CFlt b) ->
    f (fv a) (fv b) = Ok v ->
    f_op rnd f (zlen h + k) x y (h ++ t) =
      (Ok tt, h ++ zupd t k (CFlt (mkF (if prec c =? 0 then Z.max (prec a) (prec b) else prec c)
                                       (fround rnd (if prec c =? 0 then Z.max (prec a) (prec b) else prec c) v)))).
  Proof.
    intros Hz Hx Hy Hv. unfold f_op. rewrite (ebind_ok _ _ _ _ _ (run_getf_t h t k c Hz)).
    rewrite (ebind_ok _ _ _ _ _ (getf_at _ _ _ Hx)). rewrite (ebind_ok _ _ _ _ _ (getf_at _ _ _ Hy)).
    rewrite (ebind_ok _ _ _ v (h ++ t)) by (unfold elift; rewrite Hv; reflexivity).
    apply (run_set_t h t k _ (CFlt c)). exact Hz.
  Qed.
  Lemma run_fcopy h t x a : znth (h ++ t) x = Some (CFlt a) -> fcopy x (h ++ t) = (Ok (zlen h + zlen t), h ++ (t ++ [CFlt a])).
  Proof. intros Hx. unfold fcopy. rewrite (ebind_ok _ _ _ _ _ (getf_at _ _ _ Hx)). apply run_new_t. Qed.
  Lemma run_fneg h t k c x a : znth t k = Some (CFlt c) -> znth (h ++ t) x = Some (CFlt a) -> prec c = prec a ->
    f_neg rnd (zlen h + k) x (h ++ t) = (Ok tt, h ++ zupd t k (CFlt (mkF (prec a) (fl_neg (fv a))))).
  Proof.
    intros Hz Hx Hp. unfold f_neg. rewrite (ebind_ok _ _ _ _ _ (run_getf_t h t k c Hz)). rewrite (ebind_ok _ _ _ _ _ (getf_at _ _ _ Hx)).
    rewrite Hp. assert ((if prec a =? 0 then prec a else prec a) = prec a) as -> by (destruct (prec a =? 0); reflexivity).
    rewrite Z.ltb_irrefl. apply (run_set_t h t k _ (CFlt c)). exact Hz.
  Qed.
  Lemma run_fsetint h t k c n : znth t k = Some (CFlt c) -> prec c <> 0 ->
    f_setint rnd (zlen h + k) n (h ++ t) = (Ok tt, h ++ zupd t k (CFlt (mkF (prec c) (fround rnd (prec c) (Fin (inject_Z n)))))).
  Proof.
    intros Hz Hp. unfold f_setint. rewrite (ebind_ok _ _ _ _ _ (run_getf_t h t k c Hz)).
    replace (prec c =? 0) with false by lia. apply (run_set_t h t k _ (CFlt c)). exact Hz.
  Qed.
End RUN.
Lemma old_t (h t : heap) p c : znth h p = Some c -> znth (h ++ t) p = Some c.
Proof. apply znth_old. Qed.
Ltac listify := repeat match goal with
  | |- context [zupd (?x :: ?l) ?k ?c] => let r := eval cbv [zupd upd_nat Z.ltb Z.compare Z.to_nat Pos.to_nat Pos.iter_op Init.Nat.add] in (zupd (x :: l) k c) in change (zupd (x :: l) k c) with r
  | |- context [(?x :: ?l) ++ [?c]] => let r := eval cbv [app] in ((x :: l) ++ [c]) in change ((x :: l) ++ [c]) with r
  | |- context [(@nil cell) ++ [?c]] => change ((@nil cell) ++ [c]) with [c]
  | |- context [zlen (?x :: ?l)] => let r := eval vm_compute in (zlen (x :: l)) in change (zlen (x :: l)) with r
  | |- context [zlen (@nil cell)] => change (zlen (@nil cell)) with 0
  end.
Ltac look := solve [ eassumption | apply old_t; eassumption | rewrite znth_new by (vm_compute; discriminate); reflexivity | reflexivity ].
Ltac fstep :=
  match goal with
  | |- context [ebind (ebind ?m ?k1) ?k2 ?s] => rewrite (ebind_assoc m k1 k2 s)
  | |- context [ebind (fcopy ?x) ?k (?h ++ ?t)] => erewrite (ebind_ok (fcopy x) k (h ++ t)) by (apply run_fcopy; look)
  | |- context [ebind newF ?k (?h ++ ?t)] => rewrite (ebind_ok newF k (h ++ t) _ _ (run_new_t h t _))
  | |- context [ebind (new ?c) ?k (?h ++ ?t)] => rewrite (ebind_ok (new c) k (h ++ t) _ _ (run_new_t h t _))
  | |- context [ebind (getf ?x) ?k (?h ++ ?t)] => erewrite (ebind_ok (getf x) k (h ++ t)) by (apply getf_at; look)
  | |- context [ebind (eret ?v) ?k (?h ++ ?t)] => rewrite (ebind_ok (eret v) k (h ++ t) v (h ++ t) eq_refl)
  end; listify; cbn [fv prec].
Lemma quo_ok a b : ~ (b == 0)%Q -> fl_quo (Fin a) (Fin b) = Ok (Fin (a / b)).
Proof. intros Hb. unfold fl_quo. rewrite (proj2 (iszero_false b) Hb). reflexivity. Qed.
Ltac fop := match goal with
  | |- context [ebind (f_op ?rnd ?f (zlen ?h + ?j) ?x ?y) ?k (?h ++ ?t)] =>
      erewrite (ebind_ok (f_op rnd f (zlen h + j) x y) k (h ++ t)) by (apply run_fop; [look|look|look|cbn [fv]; first [reflexivity|apply quo_ok; assumption]])
  end; listify; cbn [fv prec].

Section FLOAT.
  Context (rnd : Z -> Q -> fl) (f64 : fl -> fl) (flog : flt -> flt) (fpow : flt -> flt -> flt).
  Lemma Float_bin_run op h p q a b v : znth h p = Some (CFlt a) -> znth h q = Some (CFlt b) -> op (fv a) (fv b) = Ok v -> prec a <> 0 ->
    Float_bin rnd op p q h = (Ok (Some (VF (zlen h))), h ++ [CFlt (mkF (prec a) (fround rnd (prec a) v))]).
  Proof.
    intros Hp Hq Hv Ha. rewrite <- (app_nil_r h) at 1. unfold Float_bin, some. fstep.
    erewrite ebind_ok by (apply run_fop with (a := a) (b := b) (v := v); [look|look|look|exact Hv]). listify.
    unfold eret. rewrite Z.add_0_r. replace (prec a =? 0) with false by lia. reflexivity.
  Qed.
  (* exact arithmetic: the formula of complex division *)
  Lemma div_run h pa pb pc pd p a b c d : (forall k q, rnd k q = Fin q) -> 0 < p ->
    znth h pa = Some (CFlt (mkF p (Fin a))) -> znth h pb = Some (CFlt (mkF p (Fin b))) -> znth h pc = Some (CFlt (mkF p (Fin c))) -> znth h pd = Some (CFlt (mkF p (Fin d))) ->
    ~ (c == 0)%Q ->
    exists t k1 k2 e f, div_ rnd pa pb pc pd h = (Ok (zlen h + k1, zlen h + k2), h ++ t) /\ k1 <> k2 /\
      znth t k1 = Some (CFlt (mkF p (Fin e))) /\ znth t k2 = Some (CFlt (mkF p (Fin f))) /\
      (e == (a * c + b * d) / (c * c + d * d))%Q /\ (f == (b * c - a * d) / (c * c + d * d))%Q.
  Proof.
    intros Hr Hp Pa Pb Pc Pd Hc.
    assert (HH : forall X Y : Z, (if p =? 0 then X else Y) = Y) by (intros; replace (p =? 0) with false by lia; reflexivity).
    assert (NZ : ~ (c * c + d * d == 0)%Q).
    { intros E. apply Hc. assert (0 <= d * d)%Q by (unfold Qle; cbn; nia). assert (0 <= c * c)%Q by (unfold Qle; cbn; nia).
      assert (E2 : (c * c == 0)%Q) by (apply Qle_antisym; [rewrite <- E; setoid_rewrite <- (Qplus_0_r (c * c)) at 1; apply Qplus_le_compat; [apply Qle_refl|assumption]|assumption]).
      destruct (Qmult_integral _ _ E2); assumption. }
    assert (NT : ~ (d * (d / c) + c == 0)%Q).
    { intros E. apply NZ. rewrite <- (Qmult_0_r c), <- E. field. exact Hc. }
    replace (div_ rnd pa pb pc pd h) with (div_ rnd pa pb pc pd (h ++ [])) by (rewrite app_nil_r; reflexivity).
    Ltac fopd HH Hr := fop; rewrite ?HH; rewrite ?(Z.eqb_refl 0), ?Z.max_id; cbn [fround]; rewrite ?Hr.
    unfold div_. fstep. fopd HH Hr. fstep. fopd HH Hr. fopd HH Hr. fstep.
    erewrite ebind_ok by (apply run_fsetint with (c := mkF p (Fin (d * (d / c) + c))); [reflexivity|cbn [prec]; lia]). listify. cbn [prec fround]. rewrite Hr.
    fopd HH Hr. fstep. fstep. fstep.
    destruct (negb (fsign (Fin (d / c)) =? 0)).
    - do 6 fopd HH Hr. do 5 eexists. split; [reflexivity|]. split; [discriminate|]. split; [reflexivity|]. split; [reflexivity|]. split; (cbv [inject_Z]; field; auto).
    - do 8 fopd HH Hr. do 5 eexists. split; [reflexivity|]. split; [discriminate|]. split; [reflexivity|]. split; [reflexivity|]. split; (cbv [inject_Z]; field; auto).
  Qed.
  Lemma Complex_Mul2_run h pa pb pc pd p a b c d ac bd ad bc :
    znth h pa = Some (CFlt (mkF p (Fin a))) -> znth h pb = Some (CFlt (mkF p (Fin b))) -> znth h pc = Some (CFlt (mkF p (Fin c))) -> znth h pd = Some (CFlt (mkF p (Fin d))) ->
    p <> 0 -> rnd p (a * c) = Fin ac -> rnd p (b * d) = Fin bd -> rnd p (a * d) = Fin ad -> rnd p (b * c) = Fin bc ->
    exists t, Complex_Mul2 rnd pa pb pc pd h = (Ok (Some (VC (zlen h + 0) (zlen h + 1))), h ++ t) /\
      znth t 0 = Some (CFlt (mkF p (rnd p (ac - bd)))) /\ znth t 1 = Some (CFlt (mkF p (rnd p (ad + bc)))).
  Proof.
    intros Pa Pb Pc Pd Hp E1 E2 E3 E4.
    assert (HH : forall X Y : Z, (if p =? 0 then X else Y) = Y) by (intros; replace (p =? 0) with false by lia; reflexivity).
    replace (Complex_Mul2 rnd pa pb pc pd h) with (Complex_Mul2 rnd pa pb pc pd (h ++ [])) by (rewrite app_nil_r; reflexivity). unfold Complex_Mul2, ccopy, some. repeat fstep.
    fop. rewrite ?HH. cbn [fround]. rewrite E1.
    fop. rewrite ?HH. cbn [fround]. rewrite E2.
    fop. rewrite ?HH. cbn [fround]. rewrite E3.
    fop. rewrite ?HH. cbn [fround]. rewrite E4.
    fop. rewrite ?HH. cbn [fround].
    fop. rewrite ?HH. cbn [fround].
    eexists. split; [reflexivity|]. split; reflexivity.
  Qed.
  Lemma run_nin h t k p x : znth t k = Some (CFlt (mkF p (Fin x))) ->
    exists y, negate_if_negative rnd (zlen h + k) (h ++ t) = (Ok tt, h ++ zupd t k (CFlt (mkF p (Fin y)))) /\ (y == Qabs x)%Q.
  Proof.
    intros Hk. unfold negate_if_negative. rewrite (ebind_ok _ _ _ _ _ (run_getf_t h t k _ Hk)). cbn [fv fsign].
    destruct (qsign x <? 0) eqn:S.
    - rewrite (run_fneg rnd h t k (mkF p (Fin x)) (zlen h + k) (mkF p (Fin x))); [|exact Hk|rewrite znth_new by (eapply znth_some_range; exact Hk); exact Hk|reflexivity].
      cbn [fv prec fl_neg]. exists (- x)%Q. split; [reflexivity|]. apply qsign_neg in S. rewrite Qabs_neg by (apply Qlt_le_weak; exact S). reflexivity.
    - exists x. split.
      + unfold eret. f_equal. f_equal. apply znth_ext; [rewrite zlen_zupd; reflexivity|]. intros i Hi. destruct (Z.eq_dec i k) as [->|N].
        * rewrite znth_zupd_same by lia. exact Hk.
        * rewrite znth_zupd_other by lia. reflexivity.
      + assert (AN2 : (0 <= x)%Q). { destruct (Qlt_le_dec x 0) as [N|N]; [|exact N]. apply qsign_neg in N. congruence. }
        rewrite Qabs_pos by exact AN2. reflexivity.
  Qed.
  Lemma fsign0 x : (fsign (Fin x) =? 0) = true <-> (x == 0)%Q.
  Proof. cbn [fsign]. unfold qsign, Qeq. destruct x as [n d]. cbn. destruct n; cbn; split; intros E; try reflexivity; try discriminate E; lia. Qed.
  Lemma fsign0f x : (fsign (Fin x) =? 0) = false <-> ~ (x == 0)%Q.
  Proof. rewrite <- fsign0. destruct (fsign (Fin x) =? 0); split; intros E; try discriminate; try reflexivity; try (exfalso; apply E; reflexivity). Qed.
  Lemma Complex_Div2_run h pa pb pc pd p a b c d : (forall k q, rnd k q = Fin q) -> 0 < p ->
    znth h pa = Some (CFlt (mkF p (Fin a))) -> znth h pb = Some (CFlt (mkF p (Fin b))) -> znth h pc = Some (CFlt (mkF p (Fin c))) -> znth h pd = Some (CFlt (mkF p (Fin d))) ->
    ~ (c * c + d * d == 0)%Q ->
    exists t k1 k2 e f, Complex_Div2 rnd pa pb pc pd h = (Ok (Some (VC (zlen h + k1) (zlen h + k2))), h ++ t) /\
      znth t k1 = Some (CFlt (mkF p (Fin e))) /\ znth t k2 = Some (CFlt (mkF p (Fin f))) /\
      (e == (a * c + b * d) / (c * c + d * d))%Q /\ (f == (b * c - a * d) / (c * c + d * d))%Q.
  Proof.
    intros Hr Hp Pa Pb Pc Pd NZ.
    replace (Complex_Div2 rnd pa pb pc pd h) with (Complex_Div2 rnd pa pb pc pd (h ++ [])) by (rewrite app_nil_r; reflexivity).
    unfold Complex_Div2, some. do 4 fstep.
    destruct ((fsign (Fin c) =? 0) && (fsign (Fin d) =? 0)) eqn:ZZ.
    { exfalso. apply andb_true_iff in ZZ. destruct ZZ as [Z1 Z2]. apply fsign0 in Z1, Z2. apply NZ. rewrite Z1, Z2. reflexivity. }
    destruct ((fsign (Fin a) =? 0) && (fsign (Fin b) =? 0)) eqn:ZA.
    { apply andb_true_iff in ZA. destruct ZA as [Z1 Z2]. apply fsign0 in Z1, Z2. unfold ccopy. repeat fstep.
      do 5 eexists. split; [reflexivity|]. split; [reflexivity|]. split; [reflexivity|]. split; rewrite Z1, Z2; field; exact NZ. }
    do 5 fstep.
    match goal with |- context [ebind (negate_if_negative ?r (?hh + ?j)) ?k (h ++ ?t)] => destruct (run_nin h t j p d eq_refl) as (dd & E1 & D1); rewrite (ebind_ok _ k _ _ _ E1) end. listify.
    fstep.
    match goal with |- context [ebind (negate_if_negative ?r (?hh + ?j)) ?k (h ++ ?t)] => destruct (run_nin h t j p c eq_refl) as (cc & E2 & D2); rewrite (ebind_ok _ k _ _ _ E2) end. listify.
    fstep. fstep. cbn [f_cmp].
    match goal with |- context [h ++ ?t] => set (t0 := t) end.
    assert (F : forall k1 k2 t, exists j1 j2, zlen (h ++ t0) + k1 = zlen h + j1 /\ zlen (h ++ t0) + k2 = zlen h + j2 /\
       (forall x : cell, znth t k1 = Some x -> znth (t0 ++ t) j1 = Some x) /\ (forall x, znth t k2 = Some x -> znth (t0 ++ t) j2 = Some x)).
    { intros k1 k2 t. exists (zlen t0 + k1), (zlen t0 + k2). rewrite zlen_app. split; [lia|]. split; [lia|].
      split; intros x Hx; rewrite znth_new by (eapply znth_some_range; exact Hx); exact Hx. }
    assert (L : (dd ?= cc)%Q = Gt -> ~ (d == 0)%Q).
    { intros G E. rewrite E in D1. assert (Qabs 0 == 0)%Q as A0 by reflexivity. rewrite A0 in D1. apply Qgt_alt in G. rewrite D1, D2 in G. apply (Qlt_irrefl 0). apply Qle_lt_trans with (Qabs c); [apply Qabs_nonneg|exact G]. }
    assert (L2 : (dd ?= cc)%Q <> Gt -> ~ (c == 0)%Q).
    { intros G E. apply NZ. rewrite E in D2. assert (Qabs 0 == 0)%Q as A0 by reflexivity. rewrite A0 in D2.
      assert (LE : (dd <= cc)%Q) by (apply Qle_alt; exact G). rewrite D1, D2 in LE.
      assert (D0 : (d == 0)%Q). { pose proof (Qle_Qabs d). pose proof (Qle_Qabs (- d)). rewrite Qabs_opp in H0. apply Qle_antisym; [eapply Qle_trans; eassumption|].
         rewrite <- (Qopp_involutive d). apply (Qopp_le_compat (- d) 0). eapply Qle_trans; eassumption. }
      rewrite E, D0. reflexivity. }
    assert (K0 : znth (h ++ t0) (zlen h + 0) = Some (CFlt (mkF p (Fin a)))) by (rewrite znth_new by lia; reflexivity).
    assert (K1 : znth (h ++ t0) (zlen h + 1) = Some (CFlt (mkF p (Fin b)))) by (rewrite znth_new by lia; reflexivity).
    assert (K2 : znth (h ++ t0) (zlen h + 2) = Some (CFlt (mkF p (Fin c)))) by (rewrite znth_new by lia; reflexivity).
    assert (K3 : znth (h ++ t0) (zlen h + 3) = Some (CFlt (mkF p (Fin d)))) by (rewrite znth_new by lia; reflexivity).
    clearbody t0.
    assert (NZ' : ~ (d * d + c * c == 0)%Q) by (rewrite Qplus_comm; exact NZ).
    assert (CD : (dd ?= cc)%Q <> Gt -> exists t k1 k2 e f,
      (let! (e0, f0) := div_ rnd (zlen h + 0) (zlen h + 1) (zlen h + 2) (zlen h + 3) in eret (Some (VC e0 f0))) (h ++ t0) = (Ok (Some (VC (zlen h + k1) (zlen h + k2))), h ++ t) /\
      znth t k1 = Some (CFlt (mkF p (Fin e))) /\ znth t k2 = Some (CFlt (mkF p (Fin f))) /\
      (e == (a * c + b * d) / (c * c + d * d))%Q /\ (f == (b * c - a * d) / (c * c + d * d))%Q).
    { intros G. destruct (div_run (h ++ t0) _ _ _ _ p a b c d Hr Hp K0 K1 K2 K3 (L2 G)) as (t & k1 & k2 & e & f & E & KN & Z1 & Z2 & V1 & V2).
      rewrite (ebind_ok _ _ _ _ _ E). destruct (F k1 k2 t) as (j1 & j2 & J1 & J2 & F1 & F2). rewrite J1, J2, <- app_assoc.
      exists (t0 ++ t), j1, j2, e, f. auto. }
    destruct (dd ?= cc)%Q eqn:G; [apply CD; discriminate|apply CD; discriminate|].
    destruct (div_run (h ++ t0) _ _ _ _ p b a d c Hr Hp K1 K0 K3 K2 (L eq_refl)) as (t & k1 & k2 & e & f & E & KN & Z1 & Z2 & V1 & V2).
    rewrite (ebind_ok _ _ _ _ _ E).
    rewrite (ebind_ok _ _ _ _ _ (run_fneg rnd (h ++ t0) t k2 (mkF p (Fin f)) (zlen (h ++ t0) + k2) (mkF p (Fin f)) Z2 ltac:(rewrite znth_new by (eapply znth_some_range; exact Z2); exact Z2) eq_refl)).
    cbn [fv prec fl_neg].
    destruct (F k1 k2 (zupd t k2 (CFlt (mkF p (Fin (- f)))))) as (j1 & j2 & J1 & J2 & F1 & F2). rewrite J1, J2, <- app_assoc.
    eexists _, j1, j2, e, (- f)%Q. split; [reflexivity|]. split; [apply F1; rewrite znth_zupd_other by lia; exact Z1|].
    split; [apply F2; rewrite znth_zupd_same by (eapply znth_some_range; exact Z2); reflexivity|].
    split; [rewrite V1; field; auto|rewrite V2; field; auto].
  Qed.
End FLOAT.
