(* P_Big4.v -- values of the methods of Int and Rat. *)
From Coq Require Import String QArith Qabs Qround Qpower Qfield Qcanon Lia.
From Verif Require Import Base M_Array S_Array P_Array Eff M_Number S_Number M_Big S_Big P_Big P_Big2 P_Big3.
Open Scope Z_scope.

Lemma run_new c h : new c h = (Ok (zlen h), h ++ [c]).
Proof. reflexivity. Qed.
Ltac step := match goal with
  | |- context [ebind (new ?c) ?k ?h] => rewrite (ebind_ok (new c) k h _ _ (run_new c h))
  end.

Lemma Int_bin_run f h p q a b : znth h p = Some (CInt a) -> znth h q = Some (CInt b) ->
  Int_bin f p q h = (Ok (Some (VI (zlen h))), h ++ [CInt (f a b)]).
Proof.
  intros Hp Hq. unfold Int_bin, newI, i_op, some. step.
  rewrite ebind_assoc. rewrite (ebind_ok _ _ _ _ _ (geti_at _ _ _ (znth_old h [CInt 0] _ _ Hp))).
  rewrite ebind_assoc. rewrite (ebind_ok _ _ _ _ _ (geti_at _ _ _ (znth_old h [CInt 0] _ _ Hq))).
  rewrite (ebind_ok _ _ _ _ _ (set_last h _ _)). reflexivity.
Qed.
Lemma Rat_bin_run f h p q a b : znth h p = Some (CRat a) -> znth h q = Some (CRat b) ->
  Rat_bin f p q h = (Ok (Some (VR (zlen h))), h ++ [CRat (Qred (f a b))]).
Proof.
  intros Hp Hq. unfold Rat_bin, newR, r_op, some. step.
  rewrite ebind_assoc. rewrite (ebind_ok _ _ _ _ _ (getr_at _ _ _ (znth_old h [CRat 0] _ _ Hp))).
  rewrite ebind_assoc. rewrite (ebind_ok _ _ _ _ _ (getr_at _ _ _ (znth_old h [CRat 0] _ _ Hq))).
  rewrite (ebind_ok _ _ _ _ _ (set_last h _ _)). reflexivity.
Qed.
Lemma Int_Neg_run h p a : znth h p = Some (CInt a) -> Int_Neg p h = (Ok (Some (VI (zlen h))), h ++ [CInt (- a)]).
Proof.
  intros Hp. unfold Int_Neg, newI, some. step.
  rewrite (ebind_ok _ _ _ _ _ (geti_at _ _ _ (znth_old h [CInt 0] _ _ Hp))).
  rewrite (ebind_ok _ _ _ _ _ (set_last h _ _)). reflexivity.
Qed.
Lemma Rat_Neg_run h p a : znth h p = Some (CRat a) -> Rat_Neg p h = (Ok (Some (VR (zlen h))), h ++ [CRat (Qred (- a))]).
Proof.
  intros Hp. unfold Rat_Neg, newR, rneg, some. step.
  rewrite ebind_assoc. rewrite (ebind_ok _ _ _ _ _ (getr_at _ _ _ (znth_old h [CRat 0] _ _ Hp))).
  rewrite (ebind_ok _ _ _ _ _ (set_last h _ _)). reflexivity.
Qed.
Lemma stands_new_int h n l : stands (h ++ CInt n :: l) (VI (zlen h)) (inject_Z n).
Proof. constructor. apply znth_last. Qed.
Lemma stands_new_rat h q l : stands (h ++ CRat (Qred q) :: l) (VR (zlen h)) (Qred q).
Proof. constructor; [apply znth_last|]. apply Qred_complete, Qred_correct. Qed.

Lemma iszero_spec q : iszero q = true <-> (q == 0)%Q.
Proof. unfold iszero. rewrite Z.eqb_eq. unfold Qeq. cbn. lia. Qed.
Lemma iszero_false q : iszero q = false <-> ~ (q == 0)%Q.
Proof. rewrite <- iszero_spec. destruct (iszero q); split; congruence. Qed.
Lemma qsign_neg q : (qsign q <? 0) = true <-> (q < 0)%Q.
Proof. unfold qsign, Qlt. rewrite Z.ltb_lt. cbn. destruct (Qnum q); cbn; lia. Qed.
Lemma inject0 a : (inject_Z a == 0)%Q <-> a = 0.
Proof. unfold Qeq. cbn. lia. Qed.

(* ---------------- division ---------------- *)
Lemma Int_Div2_value h p q a b : znth h p = Some (CInt a) -> znth h q = Some (CInt b) -> b <> 0 ->
  maybe (Int_Div2 p q h) (inject_Z a / inject_Z b).
Proof.
  intros Hp Hq Hb. unfold Int_Div2, newI, some, no.
  rewrite (ebind_ok _ _ _ _ _ (geti_at _ _ _ Hp)), (ebind_ok _ _ _ _ _ (geti_at _ _ _ Hq)).
  replace (b =? 0) with false by lia. rewrite andb_false_r.
  destruct (a =? 0) eqn:A0.
  { step. exists (Some (VI (zlen h))), (h ++ [CInt 0]). split; [reflexivity|]. intros v E; injection E as <-. exists (inject_Z 0). split; [apply stands_new_int|].
    assert (a = 0) by lia. subst a. unfold Qdiv. rewrite Qmult_0_l. reflexivity. }
  step.
  match goal with |- context [ebind (i_op euclid_quot (zlen h) p q) ?k ?h1] =>
    rewrite (ebind_ok (i_op euclid_quot (zlen h) p q) k h1 tt (h ++ [CInt (euclid_quot a b)])) end.
  2:{ unfold i_op. rewrite (ebind_ok _ _ _ _ _ (geti_at _ _ _ (znth_old h [CInt 0] _ _ Hp))), (ebind_ok _ _ _ _ _ (geti_at _ _ _ (znth_old h [CInt 0] _ _ Hq))). apply set_last. }
  step. set (h1 := h ++ [CInt (euclid_quot a b)]).
  match goal with |- context [ebind (i_op Z.mul (zlen h1) (zlen h) q) ?k ?h2] =>
    rewrite (ebind_ok (i_op Z.mul (zlen h1) (zlen h) q) k h2 tt (h1 ++ [CInt (euclid_quot a b * b)])) end.
  2:{ unfold i_op. rewrite (ebind_ok _ _ _ (euclid_quot a b) (h1 ++ [CInt 0])) by (apply geti_at, znth_old, znth_last).
      rewrite (ebind_ok _ _ _ b (h1 ++ [CInt 0])) by (apply geti_at; do 2 apply znth_old; exact Hq). apply set_last. }
  rewrite (ebind_ok _ _ _ (euclid_quot a b * b) (h1 ++ [CInt (euclid_quot a b * b)])) by (apply geti_at, znth_last).
  destruct (euclid_quot a b * b =? a) eqn:EM.
  - exists (Some (VI (zlen h))), (h1 ++ [CInt (euclid_quot a b * b)]). split; [reflexivity|]. intros v E; injection E as <-.
    exists (inject_Z (euclid_quot a b)). split; [constructor; apply znth_old, znth_last|].
    apply Z.eqb_eq in EM. rewrite <- EM at 2. rewrite inject_Z_mult. field. rewrite inject0. exact Hb.
  - eexists None, _. split; [reflexivity|discriminate].
Qed.
Lemma Rat_Div2_value h p q a b : znth h p = Some (CRat a) -> znth h q = Some (CRat b) -> ~ (b == 0)%Q ->
  surely (Rat_Div2 p q h) (a / b).
Proof.
  intros Hp Hq Hb. unfold Rat_Div2, newR, some.
  rewrite (ebind_ok _ _ _ _ _ (getr_at _ _ _ Hp)), (ebind_ok _ _ _ _ _ (getr_at _ _ _ Hq)).
  rewrite (proj2 (iszero_false b) Hb). rewrite andb_false_r.
  destruct (iszero a) eqn:A0.
  { step. exists (VI (zlen h)), (h ++ [CInt 0]). split; [reflexivity|]. exists (inject_Z 0). split; [apply stands_new_int|].
    apply iszero_spec in A0. rewrite A0. unfold Qdiv. rewrite Qmult_0_l. reflexivity. }
  exists (VR (zlen h)), (h ++ [CRat (Qred (a / b))]). split.
  - exact (Rat_bin_run Qdiv h p q a b Hp Hq).
  - exists (Qred (a / b)). split; [apply stands_new_rat|apply Qred_correct].
Qed.
(* ---------------- power ---------------- *)
Lemma Int_Pow2_value h p q a b : znth h p = Some (CInt a) -> znth h q = Some (CInt b) ->
  maybe (Int_Pow2 p q h) (Qpower (inject_Z a) b).
Proof.
  intros Hp Hq. unfold Int_Pow2, some, no.
  rewrite (ebind_ok _ _ _ _ _ (geti_at _ _ _ Hq)).
  destruct (b =? 0) eqn:B0.
  { step. exists (Some (VI (zlen h))), (h ++ [CInt 1]). split; [reflexivity|]. intros v E; injection E as <-. exists (inject_Z 1). split; [apply stands_new_int|].
    assert (b = 0) by lia. subst b. reflexivity. }
  destruct (b <? 0) eqn:BN.
  { eexists None, _. split; [reflexivity|discriminate]. }
  eexists (Some (VI (zlen h))), _. split; [exact (Int_bin_run Z.pow h p q a b Hp Hq)|]. intros v E; injection E as <-.
  exists (inject_Z (a ^ b)). split; [apply stands_new_int|]. rewrite Zpower_Qpower by lia. reflexivity.
Qed.
Lemma Qred_int q n : (q == inject_Z n)%Q -> Qred q = inject_Z n.
Proof. intros E. rewrite (Qred_complete _ _ E). unfold inject_Z. rewrite (Qred_identity (n # 1)); [reflexivity|]. cbn. apply Z.gcd_1_r. Qed.
Lemma pow_frac (x : Q) e : 0 <= e -> (Qpower x e == Qmake (Qnum x ^ e) (Z.to_pos (Zpos (Qden x) ^ e)))%Q.
Proof.
  intros He. assert (0 < Zpos (Qden x) ^ e) by (apply Z.pow_pos_nonneg; lia).
  rewrite Qmake_Qdiv. rewrite Z2Pos.id by lia. rewrite !Zpower_Qpower by exact He. rewrite <- Qdiv_power.
  apply Qpower_comp; [|reflexivity]. rewrite <- Qmake_Qdiv. destruct x; reflexivity.
Qed.
Lemma geti_last h c l n : c = CInt n -> geti (zlen h) (h ++ c :: l) = (Ok n, h ++ c :: l).
Proof. intros ->. apply geti_at, znth_last. Qed.
(* the part of Pow2 behind the sign of the exponent *)
Definition pow_tail (neg : bool) (l r : Z) : eff heap (option bval) :=
  let! x := getr l in
  if negb neg && iszero x then (let! z := new (CInt 0) in some (VI z)) else
  let! c' := getr r in
  if negb (Pos.eqb (Qden (Qred c')) 1) then no else
  let e := Qnum (Qred c') in
  let! x := getr l in
  let! ae := newI in let! be := newI in
  let! _ := set ae (CInt (Qnum (Qred x) ^ e)) in
  let! _ := set be (CInt (Zpos (Qden (Qred x)) ^ e)) in
  let! z := newR in
  let! a := geti ae in let! b := geti be in
  let! _ := set z (CRat (Qred (Qmake a (Z.to_pos b)))) in
  if neg then (let! _ := rinv z z in some (VR z)) else some (VR z).
Lemma set_mid h c d c' : set (zlen h) c' ((h ++ [c]) ++ [d]) = (Ok tt, (h ++ [c']) ++ [d]).
Proof.
  unfold set. rewrite (znth_old _ _ _ c) by apply znth_last. f_equal. apply znth_ext.
  - rewrite zlen_zupd, !zlen_app. reflexivity.
  - intros i Hi. rewrite zlen_zupd in Hi. destruct (Z.eq_dec i (zlen h)) as [->|Hne].
    + rewrite znth_zupd_same; [|rewrite !zlen_app; change (zlen [c]) with 1; change (zlen [d]) with 1; pose proof (zlen_nonneg h); lia].
      symmetry. apply znth_old, znth_last.
    + rewrite znth_zupd_other by lia. rewrite !zlen_app in Hi. change (zlen [c]) with 1 in Hi. change (zlen [d]) with 1 in Hi.
      destruct (Z_lt_le_dec i (zlen h)) as [Hl|Hl].
      * rewrite <- !app_assoc, !(znth_app_l h) by lia. reflexivity.
      * assert (i = zlen (h ++ [c])) as -> by (rewrite zlen_app; change (zlen [c]) with 1; lia). rewrite znth_last.
        replace (zlen (h ++ [c])) with (zlen (h ++ [c'])) by (rewrite !zlen_app; reflexivity). rewrite znth_last. reflexivity.
Qed.
Lemma pow_tail_value neg h l r x c n : znth h l = Some (CRat x) -> Qred x = x -> znth h r = Some (CRat c) -> (c == inject_Z n)%Q -> 0 < n ->
  (neg = true -> ~ (x == 0)%Q) ->
  surely (pow_tail neg l r h) (Qpower x (if neg then - n else n)).
Proof.
  intros Hl Nx Hr Hc Hn Hz. unfold pow_tail, newI, newR, some, no.
  rewrite (ebind_ok _ _ _ _ _ (getr_at _ _ _ Hl)).
  destruct (negb neg && iszero x) eqn:ZZ.
  { destruct neg; [discriminate|]. cbn in ZZ. apply iszero_spec in ZZ. step. exists (VI (zlen h)), (h ++ [CInt 0]). split; [reflexivity|].
    exists (inject_Z 0). split; [apply stands_new_int|]. rewrite ZZ. rewrite Qpower_0 by lia. reflexivity. }
  rewrite (ebind_ok _ _ _ _ _ (getr_at _ _ _ Hr)). rewrite (Qred_int _ _ Hc). cbn [Qden Qnum inject_Z]. rewrite Pos.eqb_refl. cbn [negb].
  rewrite (ebind_ok _ _ _ _ _ (getr_at _ _ _ Hl)). rewrite Nx.
  step. step. cbv zeta.
  rewrite (ebind_ok _ _ _ _ _ (set_mid h _ _ _)).
  replace (zlen (h ++ [CInt 0])) with (zlen (h ++ [CInt (Qnum x ^ n)])) by (rewrite !zlen_app; reflexivity).
  rewrite (ebind_ok _ _ _ _ _ (set_last _ _ _)). step.
  set (h1 := h ++ [CInt (Qnum x ^ n)]). set (h2 := h1 ++ [CInt (Zpos (Qden x) ^ n)]).
  rewrite (ebind_ok _ _ _ (Qnum x ^ n) (h2 ++ [CRat 0])) by (apply geti_at; do 2 apply znth_old; apply znth_last).
  rewrite (ebind_ok _ _ _ (Zpos (Qden x) ^ n) (h2 ++ [CRat 0])) by (apply geti_at, znth_old, znth_last).
  rewrite (ebind_ok _ _ _ _ _ (set_last h2 _ _)).
  set (w := Qmake (Qnum x ^ n) (Z.to_pos (Zpos (Qden x) ^ n))).
  assert (W : (w == Qpower x n)%Q) by (symmetry; apply pow_frac; lia).
  destruct neg.
  - assert (WZ : Qeq_bool (Qred w) 0 = false).
    { destruct (Qeq_bool (Qred w) 0) eqn:E; [|reflexivity]. apply Qeq_bool_eq in E. rewrite Qred_correct, W in E. exfalso. exact (Qpower_not_0 x n (Hz eq_refl) E). }
    unfold rinv. rewrite ebind_assoc.
    rewrite (ebind_ok _ _ _ (Qred w) (h2 ++ [CRat (Qred w)])) by (apply getr_at, znth_last). rewrite WZ.
    rewrite (ebind_ok _ _ _ _ _ (set_last h2 _ _)).
    eexists (VR (zlen h2)), _. split; [reflexivity|]. eexists. split; [apply stands_new_rat|]. rewrite Qred_correct, Qred_correct, W. rewrite Qpower_opp. reflexivity.
  - eexists (VR (zlen h2)), _. split; [reflexivity|]. eexists. split; [apply stands_new_rat|]. rewrite Qred_correct. exact W.
Qed.
Lemma Rat_Pow2_tail l r h c : znth h r = Some (CRat c) ->
  Rat_Pow2 l r h = if iszero c then (Ok (Some (VI (zlen h))), h ++ [CInt 1])
                   else if qsign c <? 0 then pow_tail true l r (zupd h r (CRat (Qred (- c)))) else pow_tail false l r h.
Proof.
  intros Hr. unfold Rat_Pow2. rewrite (ebind_ok _ _ _ _ _ (getr_at _ _ _ Hr)). destruct (iszero c); [reflexivity|].
  destruct (qsign c <? 0); [|reflexivity].
  assert (E : (let! _ := rneg r r in eret true) h = (Ok true, zupd h r (CRat (Qred (- c))))).
  { unfold rneg. rewrite ebind_assoc. rewrite (ebind_ok _ _ _ _ _ (getr_at _ _ _ Hr)). unfold ebind, set. rewrite Hr. reflexivity. }
  rewrite (ebind_ok _ _ _ _ _ E). reflexivity.
Qed.
Lemma Rat_Pow2_value h l r x c n : znth h l = Some (CRat x) -> Qred x = x -> znth h r = Some (CRat c) -> (c == inject_Z n)%Q ->
  (0 <= n \/ (l <> r /\ ~ (x == 0)%Q)) -> surely (Rat_Pow2 l r h) (Qpower x n).
Proof.
  intros Hl Nx Hr Hc Hn. rewrite (Rat_Pow2_tail l r h c Hr).
  destruct (iszero c) eqn:C0.
  { apply iszero_spec in C0. rewrite Hc in C0. apply (proj1 (inject0 n)) in C0. subst n. eexists _, _. split; [reflexivity|]. eexists. split; [apply stands_new_int|]. reflexivity. }
  apply iszero_false in C0. rewrite Hc in C0. rewrite inject0 in C0.
  destruct (qsign c <? 0) eqn:CN.
  - apply qsign_neg in CN. rewrite Hc in CN. assert (n < 0) by (unfold Qlt in CN; cbn in CN; lia).
    destruct Hn as [Hn|[Hlr Hx]]; [lia|]. replace n with (- - n) by lia.
    apply (pow_tail_value true _ l r x (Qred (- c))).
    + rewrite znth_zupd_other by congruence. exact Hl.
    + exact Nx.
    + rewrite znth_zupd_same; [reflexivity|]. eapply znth_some_range; exact Hr.
    + rewrite Qred_correct, Hc. reflexivity.
    + lia.
    + intros _. exact Hx.
  - assert (0 < n).
    { destruct (Z_lt_le_dec 0 n); [assumption|]. exfalso. assert (n < 0) by lia. assert ((qsign c <? 0) = true); [|congruence]. apply qsign_neg. rewrite Hc. unfold Qlt. cbn. lia. }
    apply (pow_tail_value false h l r x c n); auto. discriminate.
Qed.
