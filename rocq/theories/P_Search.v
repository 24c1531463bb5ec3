(* P_Search.v -- lemmas about the searching and sorting primitives *)
From Coq Require Import Permutation.
From Verif Require Import Base M_Array S_Array S_Structural P_Array M_Structural P_Reverse P_Take P_Comma
  P_Structural Eff S_Reduce M_Reduce P_Reduce P_Replicate S_Operators P_Operators S_Search M_Search.

(* ---------------- index of ---------------- *)
Lemma index_loop_spec {A} (eqv : A -> A -> bool) origin nf x : forall vals k,
  exists j, first_index (fun v => eqv x v = true) vals j /\
    index_loop eqv origin nf x vals k = if j =? zlen vals then nf else k + j + origin.
Proof.
  induction vals as [|v r IH]; intros k.
  - exists 0. split; [right; split; [reflexivity|intros y []]|reflexivity].
  - cbn [index_loop]. destruct (eqv x v) eqn:E.
    + exists 0. split.
      * left. zl. pose proof (zlen_nonneg r). split; [lia|split].
        -- exists v. split; [reflexivity|exact E].
        -- intros. lia.
      * zl. pose proof (zlen_nonneg r). destruct (0 =? 1 + zlen r) eqn:E2; lia.
    + destruct (IH (k + 1)) as (j & HF & HE). exists (j + 1). rewrite HE. split.
      * destruct HF as [(Hj & (y & Hy & Hp) & Hbefore)|(Hj & Hno)].
        -- left. zl. split; [lia|split].
           ++ exists y. rewrite znth_cons_pos by lia. replace (j + 1 - 1) with j by lia. auto.
           ++ intros i z Hi Hz. destruct (Z.eq_dec i 0) as [->|Hn].
              ** cbn in Hz. injection Hz as <-. congruence.
              ** rewrite znth_cons_pos in Hz by lia. apply (Hbefore (i - 1)); [lia|assumption].
        -- right. zl. split; [lia|]. intros y [<-|Hy]; [congruence|auto].
      * zl. destruct (j =? zlen r) eqn:E1, (j + 1 =? 1 + zlen r) eqn:E2; lia.
Qed.

(* ---------------- unique ---------------- *)
Lemma uniq_loop_app {A} (eqv : A -> A -> bool) : forall l1 l2 v,
  uniq_loop eqv (l1 ++ l2) v = uniq_loop eqv l2 (uniq_loop eqv l1 v).
Proof.
  induction l1 as [|x l1 IH]; intros l2 v; [reflexivity|]. cbn [app uniq_loop].
  destruct (existsb (eqv x) v); apply IH.
Qed.
Lemma firsts_snoc {A} (eqv : A -> A -> bool) l x :
  firsts eqv (l ++ [x]) = firsts eqv l ++ (if existsb (eqv x) l then [] else [x]).
Proof.
  unfold firsts. pose proof (zlen_nonneg l) as Hl. zla.
  replace (zlen l + zlen [x]) with (zlen l + 1) by reflexivity. rewrite zseq_succ by lia. rewrite flat_map_app. f_equal.
  - rewrite !flat_map_concat_map. f_equal. apply map_ext_in. intros i Hi. apply In_zseq in Hi.
    rewrite znth_app_l by lia. rewrite firstn_app.
    replace (Z.to_nat i - length l)%nat with 0%nat by (unfold zlen in Hi; lia). cbn [firstn]. rewrite app_nil_r. reflexivity.
  - cbn [flat_map]. rewrite app_nil_r. rewrite znth_app_r by lia. rewrite Z.sub_diag. cbn [znth].
    rewrite firstn_app. replace (Z.to_nat (zlen l) - length l)%nat with 0%nat by (unfold zlen; lia).
    cbn [firstn]. rewrite app_nil_r. rewrite firstn_all2 by (unfold zlen; lia). reflexivity.
Qed.
(* every element of the source is equivalent to a collected one, and vice versa *)
Lemma uniq_firsts {A} (eqv : A -> A -> bool) : equivalence eqv -> forall l, uniq_loop eqv l [] = firsts eqv l /\
  forall x, existsb (eqv x) (uniq_loop eqv l []) = existsb (eqv x) l.
Proof.
  intros (Hr & Hs & Ht) l. induction l as [|y l IH] using rev_ind; [split; reflexivity|].
  destruct IH as (IH1 & IH2). rewrite uniq_loop_app. cbn [uniq_loop]. rewrite IH2, firsts_snoc, IH1.
  destruct (existsb (eqv y) l) eqn:E.
  - split; [rewrite app_nil_r; reflexivity|]. intros x. rewrite <- IH1, IH2, existsb_app. cbn [existsb].
    destruct (eqv x y) eqn:Exy; [|rewrite !orb_false_r; reflexivity].
    cbn [orb]. rewrite orb_true_r. apply existsb_exists in E. destruct E as (z & Hz & Eyz).
    apply existsb_exists. exists z. split; [exact Hz|]. apply (Ht x y z); assumption.
  - split; [reflexivity|]. intros x. rewrite !existsb_app. rewrite <- IH1, IH2. reflexivity.
Qed.
Lemma uniq_distinct {A} (eqv : A -> A -> bool) : forall l v,
  (forall i j x y, i < j -> znth v i = Some x -> znth v j = Some y -> eqv y x = false) ->
  forall i j x y, i < j -> znth (uniq_loop eqv l v) i = Some x -> znth (uniq_loop eqv l v) j = Some y -> eqv y x = false.
Proof.
  induction l as [|z l IH]; intros v Hv; [exact Hv|]. cbn [uniq_loop].
  destruct (existsb (eqv z) v) eqn:E; [apply IH; exact Hv|]. apply IH.
  intros i j x y Hij Hx Hy.
  pose proof (znth_some_range _ _ _ Hy) as Rj. pose proof (znth_some_range _ _ _ Hx) as Ri. zlh Rj. zl.
  change (zlen [z]) with 1 in Rj.
  rewrite znth_app_l in Hx by lia.
  destruct (Z.eq_dec j (zlen v)) as [->|Hj].
  - rewrite znth_app_r in Hy by lia. rewrite Z.sub_diag in Hy. injection Hy as <-.
    destruct (eqv z x) eqn:Ez; [|reflexivity]. exfalso.
    assert (existsb (eqv z) v = true) by (apply existsb_exists; exists x; split; [eapply znth_In; exact Hx|exact Ez]). congruence.
  - rewrite znth_app_l in Hy by lia. apply (Hv i j); assumption.
Qed.
(* a list without repetitions is its own unique list *)
Lemma uniq_fix {A} (eqv : A -> A -> bool) : forall l v,
  (forall i j x y, i < j -> znth (v ++ l) i = Some x -> znth (v ++ l) j = Some y -> eqv y x = false) ->
  uniq_loop eqv l v = v ++ l.
Proof.
  induction l as [|z l IH]; intros v H; [cbn; rewrite app_nil_r; reflexivity|]. cbn [uniq_loop].
  assert (E : existsb (eqv z) v = false).
  { apply Bool.not_true_is_false. intros E. apply existsb_exists in E. destruct E as (x & Hx & Ez).
    apply In_znth in Hx. destruct Hx as (i & Hi). pose proof (znth_some_range _ _ _ Hi) as Ri.
    rewrite (H i (zlen v) x z) in Ez; [discriminate|lia| |].
    - rewrite znth_app_l by lia. exact Hi.
    - rewrite znth_app_r by lia. rewrite Z.sub_diag. reflexivity. }
  rewrite E. rewrite (IH (v ++ [z])); rewrite <- app_assoc; [reflexivity|exact H].
Qed.
Lemma uniq_loop_idem {A} (eqv : A -> A -> bool) l : uniq_loop eqv (uniq_loop eqv l []) [] = uniq_loop eqv l [].
Proof.
  apply (uniq_fix eqv _ []). cbn [app]. apply uniq_distinct.
  intros i j x y _ Hx _. apply znth_some_range in Hx. cbn in Hx. lia.
Qed.
Lemma uniq_loop_In {A} (eqv : A -> A -> bool) : forall l v x, In x (uniq_loop eqv l v) -> In x v \/ In x l.
Proof.
  induction l as [|z l IH]; intros v x H; [left; exact H|]. cbn [uniq_loop] in H.
  destruct (existsb (eqv z) v).
  - apply IH in H. cbn; tauto.
  - apply IH in H. rewrite in_app_iff in H. cbn in *. tauto.
Qed.
Lemma uniq_loop_covers {A} (eqv : A -> A -> bool) : (forall x, eqv x x = true) -> forall l v x,
  In x l \/ In x v -> exists y, In y (uniq_loop eqv l v) /\ eqv x y = true.
Proof.
  intros Hr. induction l as [|z l IH]; intros v x H.
  - destruct H as [[]|H]. exists x. split; [exact H|apply Hr].
  - cbn [uniq_loop]. destruct (existsb (eqv z) v) eqn:E.
    + destruct H as [[->|H]|H]; [|apply IH; tauto|apply IH; tauto].
      apply existsb_exists in E. destruct E as (y & Hy & Ey).
      assert (K : forall l v y, In y v -> In y (uniq_loop eqv l v)).
      { clear. induction l as [|z l IH]; intros v y H; [exact H|]. cbn [uniq_loop].
        destruct (existsb (eqv z) v); apply IH; [exact H|apply in_app_iff; left; exact H]. }
      exists y. split; [apply K; exact Hy|exact Ey].
    + apply IH. rewrite in_app_iff. cbn. cbn in H. tauto.
Qed.

(* ---------------- without ---------------- *)
Lemma filter_combine_map {A} (f : A -> bool) (l : list A) :
  map snd (filter (fun p => fst p =? 1) (combine (map (fun b : bool => if b then 1 else 0) (map negb (map f l))) l)) =
  filter (fun x => negb (f x)) l.
Proof.
  induction l as [|x l IH]; [reflexivity|]. cbn [map combine filter fst].
  destruct (f x); cbn [negb]; cbn [Z.eqb map snd]; [exact IH|]. cbn [Z.eqb Pos.eqb map snd]. rewrite IH. reflexivity.
Qed.
Lemma without_vec {A} (zero : A) eqv (l r : list A) : l <> [] ->
  without zero eqv (Arr (vec l)) (Arr (vec r)) =
  Ok (Arr (vec (filter (fun x => negb (existsb (eqv x) r)) l))).
Proof.
  intros Hl. unfold without, membership. cbn [asArr elemsOf vec dims elems].
  assert (Hz : 0 < zlen l) by (destruct l; [congruence|zl; pose proof (zlen_nonneg l); lia]).
  zla. replace (zlen l =? 0) with false by lia.
  set (cs := map (fun b : bool => if b then 1 else 0) (map negb (map (fun l0 => existsb (fun r0 => eqv l0 r0) r) l))).
  assert (Hc : zlen cs = zlen l) by (unfold cs; zla; reflexivity).
  change (mkArr [zlen l] cs) with (mkArr [zlen l] cs). rewrite <- Hc at 1. change (mkArr [zlen cs] cs) with (vec cs).
  rewrite (Replicate_vec zero cs l 0) by (auto; fail || right; reflexivity).
  rewrite replicated_bools.
  - unfold cs. rewrite (filter_combine_map (fun x => existsb (fun r0 => eqv x r0) r)). do 3 f_equal.
  - unfold cs. apply Forall_forall. intros c Hcc. apply in_map_iff in Hcc. destruct Hcc as (b & <- & _). destruct b; lia.
  - exact Hc.
Qed.

(* ---------------- where ---------------- *)
Lemma where_loop_In origin l : forall i p, In p (where_loop origin i l) <-> exists q, znth l q = Some true /\ p = i + q + origin.
Proof.
  induction l as [|b l IH]; intros i p.
  - split; [intros []|intros (q & Hq & _)]. apply znth_some_range in Hq. cbn in Hq. lia.
  - cbn [where_loop].
    assert (Hd : (exists q, znth (b :: l) q = Some true /\ p = i + q + origin) <->
                 (b = true /\ p = i + origin) \/ (exists q, znth l q = Some true /\ p = i + 1 + q + origin)).
    { split.
      - intros (q & Hq & Hp). destruct (Z.eq_dec q 0) as [->|Hn].
        + cbn in Hq. injection Hq as ->. left. split; [reflexivity|lia].
        + pose proof (znth_some_range _ _ _ Hq). rewrite znth_cons_pos in Hq by lia. right. exists (q - 1). split; [exact Hq|lia].
      - intros [(-> & ->)|(q & Hq & ->)].
        + exists 0. split; [reflexivity|lia].
        + pose proof (znth_some_range _ _ _ Hq). exists (q + 1). rewrite znth_cons_pos by lia. replace (q + 1 - 1) with q by lia. split; [exact Hq|lia]. }
    rewrite Hd. destruct b.
    + cbn [In]. rewrite IH. split; [intros [<-|H]; [left; split; [reflexivity|lia]|right; exact H]|intros [(_ & ->)|H]; [left; lia|right; exact H]].
    + rewrite IH. split; [intros H; right; exact H|intros [(H & _)|H]; [discriminate|exact H]].
Qed.
Lemma where_loop_inc origin l : forall i, increasing (where_loop origin i l).
Proof.
  induction l as [|b l IH]; intros i.
  - intros p q x y _ Hx. apply znth_some_range in Hx. cbn in Hx. lia.
  - cbn [where_loop]. destruct b; [|apply IH]. intros p q x y Hpq Hx Hy.
    pose proof (znth_some_range _ _ _ Hx) as Hp. pose proof (znth_some_range _ _ _ Hy) as Hq.
    rewrite znth_cons_pos in Hy by lia. destruct (Z.eq_dec p 0) as [->|Hn].
    + cbn in Hx. injection Hx as <-. apply znth_In in Hy. apply where_loop_In in Hy. destruct Hy as (r & Hr & ->).
      apply znth_some_range in Hr. lia.
    + rewrite znth_cons_pos in Hx by lia. apply (IH (i + 1) (p - 1) (q - 1)); [lia|assumption|assumption].
Qed.
Lemma where_loop_len origin l : forall i, zlen (where_loop origin i l) = countb (fun b => b) l.
Proof.
  unfold countb. induction l as [|b l IH]; intros i; [reflexivity|]. cbn [where_loop filter]. destruct b; zl; rewrite IH; reflexivity.
Qed.

(* ---------------- grade ---------------- *)
Lemma cell_less_lex {A} (lt : A -> A -> bool) : forall x y, zlen x = zlen y ->
  (cell_less lt x y = true <-> lex_lt lt x y).
Proof.
  induction x as [|a x IH]; intros y Hl.
  - split; [discriminate|]. intros (k & c & d & Hk & _). apply znth_some_range in Hk. cbn in Hk. lia.
  - destruct y as [|b y]; [zlh Hl; zln; pose proof (zlen_nonneg x); lia|].
    rewrite !zlen_cons in Hl. assert (Hl' : zlen x = zlen y) by lia. specialize (IH y Hl').
    cbn [cell_less]. destruct (lt a b) eqn:E1.
    + split; [|reflexivity]. intros _. exists 0, a, b. repeat split; try assumption; lia.
    + destruct (lt b a) eqn:E2.
      * split; [discriminate|]. intros (k & c & d & Hc & Hd & Hcd & Hb).
        pose proof (znth_some_range _ _ _ Hc) as Hk. destruct (Z.eq_dec k 0) as [->|Hn].
        -- cbn in Hc, Hd. congruence.
        -- destruct (Hb 0 a b ltac:(lia) eq_refl eq_refl). congruence.
      * rewrite IH. split.
        -- intros (k & c & d & Hc & Hd & Hcd & Hb). pose proof (znth_some_range _ _ _ Hc) as Hk.
           exists (k + 1), c, d. rewrite !znth_cons_pos by lia. replace (k + 1 - 1) with k by lia.
           split; [exact Hc|split; [exact Hd|split; [exact Hcd|]]].
           intros j c' d' Hj Hc' Hd'. destruct (Z.eq_dec j 0) as [->|Hn].
           ++ cbn in Hc', Hd'. injection Hc' as <-. injection Hd' as <-. auto.
           ++ rewrite znth_cons_pos in Hc', Hd' by lia. apply (Hb (j - 1) c' d'); [lia|assumption|assumption].
        -- intros (k & c & d & Hc & Hd & Hcd & Hb). pose proof (znth_some_range _ _ _ Hc) as Hk.
           destruct (Z.eq_dec k 0) as [->|Hn]; [cbn in Hc, Hd; congruence|].
           rewrite znth_cons_pos in Hc, Hd by lia. exists (k - 1), c, d. split; [exact Hc|split; [exact Hd|split; [exact Hcd|]]].
           intros j c' d' Hj Hc' Hd'. apply (Hb (j + 1)); [lia| |]; rewrite znth_cons_pos by lia; replace (j + 1 - 1) with j by lia; assumption.
Qed.
(* the lexicographic extension of a strict weak order is one, on cells of one
   length *)
Lemma cell_less_swo {A} (lt : A -> A -> bool) (P : A -> Prop) n : swo_on P lt ->
  swo_on (fun c => zlen c = n /\ Forall P c) (cell_less lt).
Proof.
  intros (Hirr & Htr & Hneg).
  assert (Hasym : forall a b, P a -> P b -> lt a b = true -> lt b a = false).
  { intros a b Ha Hb E. destruct (lt b a) eqn:E2; [|reflexivity]. rewrite <- (Hirr a Ha). symmetry. apply (Htr a b a); assumption. }
  split; [|split].
  - intros x (_ & HF). clear n. induction HF as [|a x Ha HF IH]; [reflexivity|]. cbn [cell_less]. rewrite Hirr by assumption. exact IH.
  - intros x y z (Hx & Fx) (Hy & Fy) (Hz & Fz). revert y z n Hx Hy Fy Hz Fz.
    induction Fx as [|a x Ha Fx IH]; intros y z n Hx Hy Fy Hz Fz; [discriminate|].
    destruct Fy as [|b y Hb Fy]; [cbn; discriminate|]. destruct Fz as [|c z Hc Fz]; [cbn; intros _; discriminate|].
    rewrite zlen_cons in Hx, Hy, Hz. cbn [cell_less].
    destruct (lt a b) eqn:Eab.
    + intros _. destruct (lt b c) eqn:Ebc.
      * intros _. rewrite (Htr a b c) by assumption. reflexivity.
      * destruct (lt c b) eqn:Ecb; [discriminate|]. intros _.
        destruct (lt a c) eqn:Eac; [reflexivity|]. rewrite (Hneg a c b) in Eab by assumption. discriminate.
    + destruct (lt b a) eqn:Eba; [discriminate|]. intros E1.
      destruct (lt b c) eqn:Ebc.
      * intros _. destruct (lt a c) eqn:Eac; [reflexivity|]. rewrite (Hneg b a c) in Ebc by assumption. discriminate.
      * destruct (lt c b) eqn:Ecb; [discriminate|]. intros E2.
        rewrite (Hneg a b c) by assumption. rewrite (Hneg c b a) by assumption.
        apply (IH y z (n - 1)); try assumption; lia.
  - intros x y z (Hx & Fx) (Hy & Fy) (Hz & Fz). revert y z n Hx Hy Fy Hz Fz.
    induction Fx as [|a x Ha Fx IH]; intros y z n Hx Hy Fy Hz Fz; [reflexivity|].
    destruct Fy as [|b y Hb Fy]; [zlh Hx; zlh Hy; zln; pose proof (zlen_nonneg x); lia|].
    destruct Fz as [|c z Hc Fz]; [reflexivity|].
    rewrite zlen_cons in Hx, Hy, Hz. cbn [cell_less].
    destruct (lt a b) eqn:Eab; [discriminate|].
    destruct (lt b c) eqn:Ebc; [intros _; discriminate|].
    rewrite (Hneg a b c) by assumption.
    destruct (lt b a) eqn:Eba.
    + intros _ _. destruct (lt c a) eqn:Eca; [reflexivity|]. rewrite (Hneg b c a) in Eba by assumption. discriminate.
    + destruct (lt c b) eqn:Ecb.
      * intros _ _. destruct (lt c a) eqn:Eca; [reflexivity|]. rewrite (Hneg c a b) in Ecb by assumption. discriminate.
      * intros E1 E2. rewrite (Hneg c b a) by assumption. apply (IH y z (n - 1)); try assumption; lia.
Qed.
Lemma swo_flip {A} (P : A -> Prop) (lt : A -> A -> bool) : swo_on P lt -> swo_on P (fun x y => lt y x).
Proof. intros (H1 & H2 & H3). split; [|split]; eauto. Qed.
Lemma swo_sub {A} (P Q : A -> Prop) (lt : A -> A -> bool) : (forall x, P x -> Q x) -> swo_on Q lt -> swo_on P lt.
Proof. intros H (H1 & H2 & H3). split; [|split]; eauto. Qed.

Lemma mapM_major {A} (a : arr A) d ds : wf a -> dims a = d :: ds -> ds <> [] ->
  mapM (fun i => mapM (fun k => At a (i * size ds + k)) (zseq (size ds))) (zseq d) = Ok (map (major_cell a) (zseq d)).
Proof.
  intros (Hne & Hnn & Hl) Hd Hds. apply mapM_ok_map. intros i Hi. apply In_zseq in Hi.
  rewrite Hd in Hl, Hnn. inversion Hnn as [|? ? Hd0 Hnn']; subst. pose proof (size_nonneg _ Hnn') as Hs. cbn [size] in Hl.
  unfold At. rewrite mapM_zat_range by nia. unfold major_cell. rewrite Hd. reflexivity.
Qed.
Lemma grade_cells_ok {A} (a : arr A) d ds : wf a -> dims a = d :: ds ->
  grade_cells a = Ok (map (major_cell a) (zseq d)).
Proof.
  intros Hw Hd. pose proof Hw as (Hne & Hnn & Hl). rewrite Hd in Hnn, Hl. inversion Hnn as [|? ? Hd0 Hnn']; subst.
  unfold grade_cells. rewrite Hd. destruct ds as [|d1 ds'].
  - replace (d <? 0) with false by lia. apply mapM_ok_map. intros i Hi. apply In_zseq in Hi. cbn [size] in Hl.
    unfold major_cell. rewrite Hd. cbn [tl size]. replace (i * 1) with i by lia. change (Z.to_nat 1) with 1%nat.
    unfold At, zat. destruct (znth_in_range (elems a) i ltac:(lia)) as (x & Hx). rewrite Hx. cbn [obind]. f_equal.
    unfold znth in Hx. replace (i <? 0) with false in Hx by lia. rewrite (skipn_cons_nth _ _ _ Hx). reflexivity.
  - replace (d <? 0) with false by lia. pose proof (size_nonneg _ Hnn') as Hs. rewrite Prod_size by discriminate.
    replace (size (d1 :: ds') <? 0) with false by lia. apply mapM_major; [exact Hw|exact Hd|discriminate].
Qed.
Lemma zlen_major {A} (a : arr A) d ds n : wf a -> dims a = d :: ds -> 0 <= n < d ->
  zlen (major_cell a n) = size ds.
Proof.
  intros (Hne & Hnn & Hl) Hd Hn. rewrite Hd in Hnn, Hl. inversion Hnn as [|? ? Hd0 Hnn']; subst.
  pose proof (size_nonneg _ Hnn') as Hs. cbn [size] in Hl. unfold major_cell. rewrite Hd. cbn [tl].
  unfold zlen in *. rewrite firstn_length, skipn_length. nia.
Qed.
Lemma In_firstn_ {A} (l : list A) n x : In x (firstn n l) -> In x l.
Proof. revert n. induction l as [|y l IH]; intros [|n] H; cbn in *; try tauto. destruct H as [->|H]; [left; reflexivity|right; eauto]. Qed.
Lemma In_skipn_ {A} (l : list A) n x : In x (skipn n l) -> In x l.
Proof. revert n. induction l as [|y l IH]; intros [|n] H; cbn in *; try tauto. right; eauto. Qed.
Lemma major_In {A} (a : arr A) n x : In x (major_cell a n) -> In x (elems a).
Proof. unfold major_cell. intros H. apply In_firstn_ in H. apply In_skipn_ in H. exact H. Qed.
Lemma znth_nil_ {A} i : znth (@nil A) i = None.
Proof. destruct (znth (@nil A) i) eqn:E; [|reflexivity]. apply znth_some_range in E. cbn in E. lia. Qed.
Lemma combine_pairs {A} (cs : list A) origin p : In p (combine cs (map (fun i => i + origin) (zseq (zlen cs)))) ->
  znth cs (snd p - origin) = Some (fst p).
Proof.
  intros H. apply In_znth in H. destruct H as (i & Hi). destruct p as (c, k).
  pose proof (znth_some_range _ _ _ Hi) as Hr. pose proof (zlen_nonneg cs) as Hcs0. rewrite zlen_combine in Hr by (zla; lia).
  assert (E : znth (combine cs (map (fun i => i + origin) (zseq (zlen cs)))) i =
    match znth cs i, znth (map (fun i => i + origin) (zseq (zlen cs))) i with Some x, Some y => Some (x, y) | _, _ => None end).
  { clear. generalize (map (fun i => i + origin) (zseq (zlen cs))). intros m. revert m i.
    induction cs as [|x cs IH]; intros m i.
    - cbn [combine]. rewrite !znth_nil_. reflexivity.
    - destruct m as [|y m].
      + cbn [combine]. rewrite !znth_nil_. destruct (znth (x :: cs) i); reflexivity.
      + cbn [combine]. destruct (Z.eq_dec i 0) as [->|Hn]; [reflexivity|].
        destruct (Z_lt_dec i 0) as [Hneg|Hpos]; [unfold znth; replace (i <? 0) with true by lia; reflexivity|].
        rewrite !znth_cons_pos by lia. apply IH. }
  rewrite Hi, znth_map, znth_zseq in E by lia. cbn [option_map] in E.
  destruct (znth cs i) as [x|] eqn:Ex; [|discriminate]. injection E as <- ->. cbn [fst snd].
  replace (i + origin - origin) with i by lia. exact Ex.
Qed.
Lemma map_snd_combine {A B} : forall (l : list A) (m : list B), zlen l = zlen m -> map snd (combine l m) = m.
Proof.
  induction l as [|x l IH]; intros [|y m] H; try reflexivity.
  - zlh H. zln. pose proof (zlen_nonneg m). lia.
  - rewrite !zlen_cons in H. cbn [combine map snd]. rewrite IH by lia. reflexivity.
Qed.
Lemma grade_sorted {A} (srt : sorter) (lt : A -> A -> bool) conv (up : bool) origin (a : arr A) d ds cs n (P : A -> Prop) :
  go_sort srt -> wf a -> dims a = d :: ds -> 0 < size (dims a) ->
  conv (map (major_cell a) (zseq d)) = Some cs -> zlen cs = d ->
  Forall (fun c => zlen c = n /\ Forall P c) cs -> swo_on P lt ->
  exists idx, grade srt lt conv up origin (Arr a) = Ok (Arr (vec idx)) /\
    Permutation idx (map (fun i => i + origin) (zseq d)) /\
    forall i j p q, i < j -> znth idx i = Some p -> znth idx j = Some q ->
      exists cp cq, znth cs (p - origin) = Some cp /\ znth cs (q - origin) = Some cq /\
        if up then ~ lex_lt lt cq cp else ~ lex_lt lt cp cq.
Proof.
  intros Hsrt Hw Hd Hsz Hconv Hcl HF Hswo.
  assert (Hdp : 0 < d /\ 0 < size ds).
  { destruct Hw as (_ & Hnn & _). rewrite Hd in Hsz, Hnn. cbn [size] in Hsz. inversion Hnn as [|? ? H1 H2]; subst.
    pose proof (size_nonneg _ H2). nia. }
  unfold grade, grade_setup. cbn [asArr]. rewrite (grade_cells_ok a d ds Hw Hd). cbn [obind].
  assert (H0 : zat (map (major_cell a) (zseq d)) 0 = Ok (major_cell a 0)).
  { unfold zat. rewrite znth_map, znth_zseq by lia. reflexivity. }
  rewrite H0. cbn [obind].
  pose proof (zlen_major a d ds 0 Hw Hd ltac:(lia)) as Hml.
  destruct (znth_in_range (major_cell a 0) 0 ltac:(lia)) as (x0 & Hx0).
  assert (H00 : zat (major_cell a 0) 0 = Ok x0) by (unfold zat; rewrite Hx0; reflexivity).
  rewrite H00. cbn [obind]. rewrite Hconv. cbn [obind].
  set (pairs := combine cs (map (fun i => i + origin) (zseq (zlen cs)))).
  set (less := fun p q : list A * Z => cell_less lt (fst p) (fst q)).
  assert (Hcell : forall p, In p pairs -> zlen (fst p) = n /\ Forall P (fst p)).
  { intros p Hp. apply combine_pairs in Hp. apply znth_In in Hp. rewrite Forall_forall in HF. apply HF. exact Hp. }
  assert (Hl : swo_on (fun p => In p pairs) less).
  { pose proof (cell_less_swo lt P n Hswo) as (H1 & H2 & H3). unfold less. split; [|split].
    - intros p Hp. apply H1. auto.
    - intros p q r Hp Hq Hr. apply H2; auto.
    - intros p q r Hp Hq Hr. apply H3; auto. }
  set (ls := if up then less else fun p q => less q p).
  assert (Hls : swo_on (fun p => In p pairs) ls) by (unfold ls; destruct up; [exact Hl|apply swo_flip; exact Hl]).
  destruct (Hsrt _ ls pairs Hls) as (HP & HS).
  exists (map snd (srt _ ls pairs)). split; [reflexivity|split].
  - replace (map (fun i => i + origin) (zseq d)) with (map snd pairs).
    + apply Permutation_map. symmetry. exact HP.
    + unfold pairs. rewrite map_snd_combine by (zla; lia). rewrite Hcl. reflexivity.
  - intros i j p q Hij Hp Hq. rewrite znth_map in Hp, Hq.
    destruct (znth (srt _ ls pairs) i) as [pp|] eqn:Epp; [|discriminate]. injection Hp as <-.
    destruct (znth (srt _ ls pairs) j) as [qq|] eqn:Eqq; [|discriminate]. injection Hq as <-.
    assert (Ipp : In pp pairs) by (apply (Permutation_in _ (Permutation_sym HP)); eapply znth_In; exact Epp).
    assert (Iqq : In qq pairs) by (apply (Permutation_in _ (Permutation_sym HP)); eapply znth_In; exact Eqq).
    exists (fst pp), (fst qq). split; [apply combine_pairs; exact Ipp|split; [apply combine_pairs; exact Iqq|]].
    specialize (HS i j pp qq Hij Epp Eqq). unfold ls, less in HS.
    destruct (Hcell pp Ipp) as (Lp & _). destruct (Hcell qq Iqq) as (Lq & _).
    destruct up; intros HL; (apply cell_less_lex in HL; [|lia]); congruence.
Qed.
(* a sort routine that meets the contract: insertion sort *)
Fixpoint insert {A} (less : A -> A -> bool) (x : A) (l : list A) : list A :=
  match l with
  | [] => [x]
  | y :: r => if less x y then x :: l else y :: insert less x r
  end.
Definition isort : sorter := fun A less l => fold_right (insert less) [] l.
Lemma insert_perm {A} (less : A -> A -> bool) x l : Permutation (x :: l) (insert less x l).
Proof.
  induction l as [|y l IH]; [reflexivity|]. cbn [insert]. destruct (less x y); [reflexivity|].
  rewrite perm_swap. constructor. exact IH.
Qed.
Definition ordered {A} (less : A -> A -> bool) (l : list A) : Prop :=
  ForallOrdPairs (fun x y => less y x = false) l.
Lemma insert_ordered {A} (less : A -> A -> bool) x l : swo_on (fun y => In y (x :: l)) less ->
  ordered less l -> ordered less (insert less x l).
Proof.
  intros Hs H. induction H as [|y l Hy H IH]; [constructor; constructor|]. cbn [insert].
  pose proof Hs as (Hirr & Htr & Hneg).
  destruct (less x y) eqn:E.
  - constructor; [|constructor; assumption]. constructor.
    + destruct (less y x) eqn:E2; [|reflexivity]. rewrite <- (Hirr x (or_introl eq_refl)). symmetry.
      apply (Htr x y x); cbn; auto.
    + apply Forall_forall. intros z Hz. rewrite Forall_forall in Hy. specialize (Hy z Hz).
      destruct (less z x) eqn:E2; [|reflexivity]. rewrite <- Hy. symmetry. apply (Htr z x y); cbn; auto.
  - constructor.
    + apply Forall_forall. intros z Hz. apply (Permutation_in _ (Permutation_sym (insert_perm less x l))) in Hz.
      destruct Hz as [<-|Hz]; [exact E|]. rewrite Forall_forall in Hy. auto.
    + apply IH. eapply swo_sub; [|exact Hs]. cbn. intros z; tauto.
Qed.
Lemma ordered_znth {A} (less : A -> A -> bool) l : ordered less l ->
  forall i j x y, i < j -> znth l i = Some x -> znth l j = Some y -> less y x = false.
Proof.
  intros H. induction H as [|z l Hz H IH]; intros i j x y Hij Hx Hy.
  - apply znth_some_range in Hx. cbn in Hx. lia.
  - pose proof (znth_some_range _ _ _ Hx). rewrite (znth_cons_pos z l j) in Hy by lia.
    destruct (Z.eq_dec i 0) as [->|Hn].
    + cbn in Hx. injection Hx as <-. rewrite Forall_forall in Hz. apply Hz. eapply znth_In. exact Hy.
    + rewrite znth_cons_pos in Hx by lia. apply (IH (i - 1) (j - 1)); [lia|assumption|assumption].
Qed.
Lemma isort_ok : go_sort isort.
Proof.
  intros A less l Hs.
  assert (HP : Permutation l (isort A less l)).
  { clear. induction l as [|x l IH]; [reflexivity|]. cbn [isort fold_right]. rewrite <- insert_perm. constructor. exact IH. }
  split; [exact HP|]. apply ordered_znth. clear HP.
  induction l as [|x l IH]; [constructor|]. cbn [isort fold_right].
  apply insert_ordered.
  - eapply swo_sub; [|exact Hs]. intros y [->|Hy]; [left; reflexivity|right].
    assert (HP : Permutation l (isort A less l)).
    { clear. induction l as [|x l IH]; [reflexivity|]. cbn [isort fold_right]. rewrite <- insert_perm. constructor. exact IH. }
    apply (Permutation_in _ (Permutation_sym HP)). exact Hy.
  - apply IH. eapply swo_sub; [|exact Hs]. intros y Hy. right. exact Hy.
Qed.

(* ---------------- interval index ---------------- *)
Lemma interval_loop_ok {A} (lt : A -> A -> bool) fless origin r :
  forall l k, l <> [] -> (forall y, In y l -> fless r y = Ok (lt r y)) ->
  (forall i j x y, i < j -> znth l i = Some x -> znth l j = Some y -> lt r x = true -> lt r y = true) ->
  interval_loop fless origin r l k = Ok (k + countb (fun y => negb (lt r y)) l - 1 + origin).
Proof.
  unfold countb. induction l as [|y l IH]; intros k Hne Hf Hm; [congruence|]. cbn [interval_loop].
  rewrite Hf by (left; reflexivity). cbn [obind]. destruct (lt r y) eqn:E.
  - assert (Hz : filter (fun z => negb (lt r z)) (y :: l) = []).
    { assert (HA : forall z, In z (y :: l) -> lt r z = true).
      { intros z [->|Hz]; [exact E|]. apply In_znth in Hz. destruct Hz as (i & Hi). pose proof (znth_some_range _ _ _ Hi).
        apply (Hm 0 (i + 1) y z); [lia|reflexivity| |exact E]. rewrite znth_cons_pos by lia. replace (i + 1 - 1) with i by lia. exact Hi. }
      clear - HA. induction (y :: l) as [|z m IH]; [reflexivity|]. cbn [filter]. rewrite HA by (left; reflexivity). cbn [negb].
      apply IH. intros; apply HA; right; assumption. }
    rewrite Hz. cbn. f_equal. lia.
  - cbn [filter]. rewrite E. cbn [negb]. zl. destruct l as [|z l']; [cbn; f_equal; lia|].
    rewrite IH; [f_equal; lia|discriminate| |].
    + intros; apply Hf; right; assumption.
    + intros i j x w Hij Hx Hw Hl. pose proof (znth_some_range _ _ _ Hx).
      apply (Hm (i + 1) (j + 1) x w); [lia| | |exact Hl]; rewrite znth_cons_pos by lia;
        [replace (i + 1 - 1) with i by lia|replace (j + 1 - 1) with j by lia]; assumption.
Qed.
Lemma increasing_perm_id origin n (idx : list Z) : 0 <= n ->
  Permutation idx (map (fun i => i + origin) (zseq n)) -> increasing idx -> idx = map (fun i => i + origin) (zseq n).
Proof.
  intros Hn HP Hinc.
  assert (Hlen : zlen idx = n) by (unfold zlen; rewrite (Permutation_length HP); fold (zlen (map (fun i => i + origin) (zseq n))); zla; lia).
  (* the i-th element has exactly i elements below it *)
  apply znth_ext; [zla; lia|]. intros i Hi.
  rewrite znth_map, znth_zseq by lia. cbn [option_map].
  destruct (znth_in_range idx i ltac:(lia)) as (x & Hx). rewrite Hx. f_equal.
  assert (Hall : forall y, In y idx <-> origin <= y < origin + n).
  { intros y. split.
    - intros Hy. apply (Permutation_in _ HP) in Hy. apply in_map_iff in Hy. destruct Hy as (k & <- & Hk). apply In_zseq in Hk. lia.
    - intros Hy. apply (Permutation_in _ (Permutation_sym HP)). apply in_map_iff. exists (y - origin). split; [lia|apply In_zseq; lia]. }
  assert (Hlow : forall k y, 0 <= k -> znth idx k = Some y -> origin + k <= y).
  { intros k y Hk. revert y. pattern k. apply natlike_ind; [| |exact Hk].
    - intros y Hy. apply znth_In in Hy. apply Hall in Hy. lia.
    - intros m Hm IH y Hy. pose proof (znth_some_range _ _ _ Hy) as Hr.
      destruct (znth_in_range idx m ltac:(lia)) as (z & Hz). specialize (IH z Hz).
      pose proof (Hinc m (Z.succ m) z y ltac:(lia) Hz Hy). lia. }
  assert (Hhigh : forall k y, 0 <= k -> znth idx (n - 1 - k) = Some y -> y <= origin + (n - 1 - k)).
  { intros k y Hk. revert y. pattern k. apply natlike_ind; [| |exact Hk].
    - intros y Hy. apply znth_In in Hy. apply Hall in Hy. lia.
    - intros m Hm IH y Hy. pose proof (znth_some_range _ _ _ Hy) as Hr.
      destruct (znth_in_range idx (n - 1 - m) ltac:(lia)) as (z & Hz). specialize (IH z Hz).
      pose proof (Hinc (n - 1 - Z.succ m) (n - 1 - m) y z ltac:(lia) Hy Hz). lia. }
  pose proof (Hlow i x ltac:(lia) Hx). pose proof (Hhigh (n - 1 - i) x ltac:(lia)) as Hh.
  replace (n - 1 - (n - 1 - i)) with i in Hh by lia. specialize (Hh Hx). lia.
Qed.
Lemma vec_major {A} (l : list A) i x : znth l i = Some x -> major_cell (vec l) i = [x].
Proof.
  intros Hx. pose proof (znth_some_range _ _ _ Hx). unfold major_cell. cbn [dims vec tl size elems].
  replace (i * 1) with i by lia. change (Z.to_nat 1) with 1%nat.
  unfold znth in Hx. replace (i <? 0) with false in Hx by lia. rewrite (skipn_cons_nth _ _ _ Hx). reflexivity.
Qed.
Lemma vec_majors {A} (l : list A) : map (major_cell (vec l)) (zseq (zlen l)) = map (fun x => [x]) l.
Proof.
  pose proof (zlen_nonneg l). apply znth_ext; [zla; lia|]. intros i Hi. zlh Hi.
  destruct (znth_in_range l i ltac:(lia)) as (x & Hx).
  rewrite !znth_map, znth_zseq by lia. rewrite Hx. cbn [option_map]. rewrite (vec_major l i x Hx). reflexivity.
Qed.
Definition strictly {A} (lt : A -> A -> bool) (l : list A) : Prop :=
  forall i j x y, i < j -> znth l i = Some x -> znth l j = Some y -> lt x y = true.
Lemma single_lex {A} (lt : A -> A -> bool) x y : lt x y = true -> lex_lt lt [x] [y].
Proof. intros H. exists 0, x, y. repeat split; try assumption; lia. Qed.

Lemma grade_vec {A} (srt : sorter) (lt : A -> A -> bool) conv up origin (l : list A) (P : A -> Prop) :
  go_sort srt -> l <> [] -> conv (map (fun x => [x]) l) = Some (map (fun x => [x]) l) -> Forall P l -> swo_on P lt ->
  exists idx, grade srt lt conv up origin (Arr (vec l)) = Ok (Arr (vec idx)) /\
    Permutation idx (map (fun i => i + origin) (zseq (zlen l))) /\
    forall i j p q x y, i < j -> znth idx i = Some p -> znth idx j = Some q ->
      znth l (p - origin) = Some x -> znth l (q - origin) = Some y ->
      if up then lt y x = false else lt x y = false.
Proof.
  intros Hs Hne Hc HP Hswo.
  assert (Hz : 0 < zlen l) by (destruct l; [congruence|zl; pose proof (zlen_nonneg l); lia]).
  destruct (grade_sorted srt lt conv up origin (vec l) (zlen l) [] (map (fun x => [x]) l) 1 P Hs (wf_vec l) eq_refl) as (idx & E & HPm & HO).
  - cbn [dims vec size]. lia.
  - rewrite vec_majors. exact Hc.
  - zla. reflexivity.
  - apply Forall_forall. intros c Hcc. apply in_map_iff in Hcc. destruct Hcc as (x & <- & Hx). split; [reflexivity|].
    constructor; [|constructor]. rewrite Forall_forall in HP. auto.
  - exact Hswo.
  - exists idx. split; [exact E|split; [exact HPm|]]. intros i j p q x y Hij Hp Hq Hx Hy.
    destruct (HO i j p q Hij Hp Hq) as (cp & cq & Hcp & Hcq & HL).
    rewrite znth_map, Hx in Hcp. rewrite znth_map, Hy in Hcq. cbn in Hcp, Hcq. injection Hcp as <-. injection Hcq as <-.
    destruct up.
    + destruct (lt y x) eqn:E1; [|reflexivity]. exfalso. apply HL. apply single_lex. exact E1.
    + destruct (lt x y) eqn:E1; [|reflexivity]. exfalso. apply HL. apply single_lex. exact E1.
Qed.
Lemma NoDup_znth {A} (l : list A) i j x : NoDup l -> znth l i = Some x -> znth l j = Some x -> i = j.
Proof.
  intros Hn Hi Hj. pose proof (znth_some_range _ _ _ Hi). pose proof (znth_some_range _ _ _ Hj).
  unfold znth in Hi, Hj. replace (i <? 0) with false in Hi by lia. replace (j <? 0) with false in Hj by lia.
  assert (Z.to_nat i = Z.to_nat j); [|lia].
  apply (proj1 (NoDup_nth_error l) Hn); [apply nth_error_Some; congruence|congruence].
Qed.
Lemma intervalindex_ok {A} (srt : sorter) (lt : A -> A -> bool) conv fless origin (l r : list A) :
  go_sort srt -> l <> [] -> conv (map (fun x => [x]) l) = Some (map (fun x => [x]) l) ->
  swo_on (fun x => In x l \/ In x r) lt -> strictly lt l ->
  (forall x y, In x r -> In y l -> fless x y = Ok (lt x y)) ->
  intervalindex srt lt conv fless origin (Arr (vec l)) (Arr (vec r)) =
  Ok (Arr (vec (map (fun x => countb (fun y => negb (lt x y)) l - 1 + origin) r))).
Proof.
  intros Hs Hne Hc Hswo Hst Hf.
  assert (Hswol : swo_on (fun x => In x l) lt) by (eapply swo_sub; [|exact Hswo]; cbn; auto).
  destruct (grade_vec srt lt conv true origin l (fun x => In x l) Hs Hne Hc) as (idx & E & HP & HO);
    [apply Forall_forall; auto|exact Hswol|].
  assert (Hall : forall y, In y idx -> origin <= y < origin + zlen l).
  { intros y Hy. apply (Permutation_in _ HP) in Hy. apply in_map_iff in Hy. destruct Hy as (k & <- & Hk). apply In_zseq in Hk. lia. }
  assert (Hnd : NoDup idx).
  { apply (Permutation_NoDup (Permutation_sym HP)). apply FinFun.Injective_map_NoDup; [intros a b; lia|apply NoDup_zseq]. }
  assert (Hinc : increasing idx).
  { intros i j p q Hij Hp Hq. pose proof (Hall p (znth_In _ _ _ Hp)). pose proof (Hall q (znth_In _ _ _ Hq)).
    destruct (znth_in_range l (p - origin) ltac:(lia)) as (x & Hx).
    destruct (znth_in_range l (q - origin) ltac:(lia)) as (y & Hy).
    pose proof (HO i j p q x y Hij Hp Hq Hx Hy) as HL. cbn in HL.
    destruct (Z_lt_dec p q) as [H1|H1]; [exact H1|]. destruct (Z.eq_dec p q) as [->|H2].
    - exfalso. assert (i = j); [|lia]. eapply NoDup_znth; eassumption.
    - rewrite (Hst (q - origin) (p - origin) y x) in HL; [discriminate|lia|assumption|assumption]. }
  pose proof (zlen_nonneg l) as Hl0.
  pose proof (increasing_perm_id origin (zlen l) idx Hl0 HP Hinc) as Hid.
  unfold intervalindex. rewrite E. cbn [obind elemsOf asArr vec elems dims shapeOf].
  rewrite Hid. zla. replace (Z.max 0 (zlen l)) with (zlen l) by lia.
  assert (Hfb : forall m : list Z, forallb (fun p => fst p =? snd p) (combine m m) = true).
  { induction m as [|x m IH]; [reflexivity|]. cbn. rewrite Z.eqb_refl. exact IH. }
  rewrite Hfb. cbn [negb]. change (zat [zlen l] 0) with (Ok (zlen l)). change (zat [zlen r] 0) with (Ok (zlen r)). cbn [obind].
  pose proof (zlen_nonneg r) as Hr0. replace (zlen r <? 0) with false by lia.
  change (1 <? zlen [zlen r]) with false. cbv iota.
  rewrite firstn_all2 by (unfold zlen; lia).
  assert (HM : mapM (fun i => let* x := At (mkArr [zlen r] r) (i * 1) in interval_loop fless origin x l 0) (zseq (zlen r)) =
    Ok (map (fun x => countb (fun y => negb (lt x y)) l - 1 + origin) r)).
  { rewrite (mapM_ok_map _ (fun i => match znth r i with Some x => countb (fun y => negb (lt x y)) l - 1 + origin | None => 0 end)).
    - f_equal. apply znth_ext; [zla; lia|]. intros i Hi. zlh Hi. rewrite !znth_map, znth_zseq by lia. cbn [option_map].
      destruct (znth_in_range r i ltac:(lia)) as (x & Hx). rewrite Hx. reflexivity.
    - intros i Hi. apply In_zseq in Hi. destruct (znth_in_range r i ltac:(lia)) as (x & Hx). rewrite Hx.
      unfold At, zat. cbn [elems]. replace (i * 1) with i by lia. rewrite Hx. cbn [obind].
      assert (Ix : In x r) by (eapply znth_In; exact Hx).
      rewrite (interval_loop_ok lt fless origin x l 0 Hne).
      + f_equal. 
      + intros y Hy. apply Hf; assumption.
      + intros a b u v Hab Hu Hv Hlt. destruct Hswo as (_ & Htr & _).
        apply (Htr x u v); [auto|left; eapply znth_In; exact Hu|left; eapply znth_In; exact Hv|exact Hlt|].
        apply (Hst a b); assumption. }
  change (1 <? 1 + zlen []) with false. cbv iota. change (vec r) with (mkArr [zlen r] r). rewrite HM. cbn [obind].
  unfold vec. zla. reflexivity.
Qed.
(* a decrease in L is noticed *)
Lemma intervalindex_unsorted {A} (srt : sorter) (lt : A -> A -> bool) conv fless origin (l : list A) R :
  go_sort srt -> l <> [] -> conv (map (fun x => [x]) l) = Some (map (fun x => [x]) l) ->
  swo_on (fun x => In x l) lt ->
  (exists i j x y, i < j /\ znth l i = Some x /\ znth l j = Some y /\ lt y x = true) ->
  intervalindex srt lt conv fless origin (Arr (vec l)) R = Err.
Proof.
  intros Hs Hne Hc Hswo (i & j & x & y & Hij & Hx & Hy & Hlt).
  destruct (grade_vec srt lt conv true origin l (fun x => In x l) Hs Hne Hc) as (idx & E & HP & HO);
    [apply Forall_forall; auto|exact Hswo|].
  unfold intervalindex. rewrite E. cbn [obind elemsOf asArr vec elems dims shapeOf].
  destruct (forallb _ _) eqn:Ef; [|reflexivity]. exfalso.
  pose proof (zlen_nonneg l) as Hl0.
  assert (Hlen : zlen idx = zlen l).
  { unfold zlen at 1. rewrite (Permutation_length HP). fold (zlen (map (fun i => i + origin) (zseq (zlen l)))). zla. lia. }
  assert (Hid : idx = map (fun i => i + origin) (zseq (zlen idx))).
  { assert (K : forall a b : list Z, zlen a = zlen b -> forallb (fun p => fst p =? snd p) (combine a b) = true -> a = b).
    { induction a as [|u a IH]; intros [|v b] Hab Hfb; try reflexivity; zlh Hab; zln; try (pose proof (zlen_nonneg a); pose proof (zlen_nonneg b); lia).
      - pose proof (zlen_nonneg b). lia.
      - pose proof (zlen_nonneg a). lia.
      - cbn in Hfb. apply andb_prop in Hfb. destruct Hfb as (Hq1 & Hq2). apply Z.eqb_eq in Hq1. subst. f_equal. apply IH; [lia|exact Hq2]. }
    apply K; [zla; lia|exact Ef]. }
  pose proof (znth_some_range _ _ _ Hx). pose proof (znth_some_range _ _ _ Hy).
  specialize (HO i j (i + origin) (j + origin) x y Hij). cbn in HO. rewrite HO in Hlt; [discriminate| | | |].
  - rewrite Hid, znth_map, znth_zseq by lia. reflexivity.
  - rewrite Hid, znth_map, znth_zseq by lia. reflexivity.
  - replace (i + origin - origin) with i by lia. exact Hx.
  - replace (j + origin - origin) with j by lia. exact Hy.
Qed.

(* ---------------- match ---------------- *)
Lemma shape_eqb_eq a : forall b, shape_eqb a b = true <-> a = b.
Proof.
  induction a as [|x a IH]; intros [|y b]; cbn; try (split; congruence); try tauto.
  rewrite Bool.andb_true_iff, Z.eqb_eq, IH. split; [intros (-> & ->); reflexivity|intros H; injection H; auto].
Qed.
Lemma match_loop_pure {A} (feq : A -> A -> outcome bool) (eqb : A -> A -> bool) : forall r l,
  zlen r = zlen l -> (forall x y, In x r -> In y l -> feq x y = Ok (eqb x y)) ->
  match_loop feq r l = Ok (forallb (fun p => eqb (fst p) (snd p)) (combine r l)).
Proof.
  induction r as [|x r IH]; intros [|y l] Hl Hf; try reflexivity.
  - zlh Hl. zln. pose proof (zlen_nonneg r). lia.
  - rewrite !zlen_cons in Hl. cbn [match_loop combine forallb fst snd]. rewrite Hf by (left; reflexivity). cbn [obind].
    destruct (eqb x y); [|reflexivity]. cbn [andb]. apply IH; [lia|]. intros; apply Hf; right; assumption.
Qed.
Lemma forallb_combine_Forall2 {A} (eqb : A -> A -> bool) : forall r l, zlen r = zlen l ->
  (forallb (fun p => eqb (fst p) (snd p)) (combine r l) = true <-> Forall2 (fun x y => eqb x y = true) r l).
Proof.
  induction r as [|x r IH]; intros [|y l] Hl.
  - cbn. split; [constructor|reflexivity].
  - zlh Hl. zln. pose proof (zlen_nonneg l). lia.
  - zlh Hl. zln. pose proof (zlen_nonneg r). lia.
  - rewrite !zlen_cons in Hl. cbn [combine forallb fst snd]. rewrite Bool.andb_true_iff, (IH l) by lia.
    split; [intros (H1 & H2); constructor; assumption|intros H; inversion H; subst; split; assumption].
Qed.
Lemma match_arr {A} eqv (feq : A -> A -> outcome bool) (eqb : A -> A -> bool) (L R : arr A) :
  wf L -> wf R -> (dims L = dims R -> forall x y, In x (elems R) -> In y (elems L) -> feq x y = Ok (eqb x y)) ->
  exists b, match_ eqv feq (Arr L) (Arr R) = Ok b /\
    (b = true <-> dims L = dims R /\ Forall2 (fun x y => eqb x y = true) (elems R) (elems L)).
Proof.
  intros (HL1 & HL2 & HL3) (HR1 & HR2 & HR3) Hf. unfold match_. cbn [shapeOf elemsOf].
  destruct (zlen (dims R) =? zlen (dims L)) eqn:E1; cbn [negb].
  2:{ exists false. split; [reflexivity|]. split; [discriminate|]. intros (H & _). rewrite H in E1. lia. }
  assert (H0 : (zlen (dims R) =? 0) = false).
  { apply Z.eqb_neq. intros H. destruct (dims R); [congruence|]. zlh H. pose proof (zlen_nonneg l). lia. }
  rewrite H0. destruct (shape_eqb (dims L) (dims R)) eqn:E2; cbn [negb].
  2:{ exists false. split; [reflexivity|]. split; [discriminate|]. intros (H & _). apply shape_eqb_eq in H. congruence. }
  apply shape_eqb_eq in E2. assert (Hz : zlen (elems R) = zlen (elems L)) by (rewrite HL3, HR3, E2; reflexivity).
  rewrite (match_loop_pure feq eqb) by auto. eexists. split; [reflexivity|].
  rewrite forallb_combine_Forall2 by exact Hz. split; [auto|tauto].
Qed.

(* ---------------- find ---------------- *)
Definition shift (idx o : list Z) : list Z := map (fun q => fst q + snd q) (combine idx o).
Lemma pos_shift ds : forall idx o, length ds = length idx -> length ds = length o ->
  pos ds (shift idx o) = pos ds idx + pos ds o.
Proof.
  induction ds as [|d ds IH]; intros [|i idx] [|j o] H1 H2; try discriminate; [reflexivity|].
  unfold shift in *. cbn [combine map fst snd pos]. injection H1 as H1. injection H2 as H2. rewrite IH by assumption. lia.
Qed.
Lemma find_at_spec {A} (feq : A -> A -> outcome bool) (eqb : A -> A -> bool) (ar : arr A) ls i :
  wf ar -> length ls = length (dims ar) ->
  (forall x y, In y (elems ar) -> feq x y = Ok (eqb x y)) ->
  (forall o, inb ls o -> 0 <= i + pos (dims ar) o < zlen (elems ar)) ->
  forall pat idx, inb ls idx -> pos ls idx + zlen pat = size ls ->
  find_at feq ar (strides (dims ar)) ls i idx pat =
  Ok (forallb (fun p => match znth (elems ar) (i + pos (dims ar) (snd p)) with Some y => eqb (fst p) y | None => false end)
       (combine pat (skipn (Z.to_nat (pos ls idx)) (all_idx ls)))).
Proof.
  intros Hw Hlen Hf Hr. induction pat as [|p pat IH]; intros idx Hi Hp; [reflexivity|].
  cbn [find_at].
  assert (Hl : length (dims ar) = length idx) by (rewrite <- Hlen; apply inb_length; exact Hi).
  rewrite ic_index_pos by exact Hl.
  destruct (znth_in_range (elems ar) (i + pos (dims ar) idx) (Hr idx Hi)) as (y & Hy).
  unfold At, zat. rewrite Hy. cbn [obind]. rewrite Hf by (eapply znth_In; exact Hy). cbn [obind].
  pose proof (pos_range ls idx Hi) as Hpr. rewrite zlen_cons in Hp. pose proof (zlen_nonneg pat) as Hpn.
  assert (Hsk : skipn (Z.to_nat (pos ls idx)) (all_idx ls) = idx :: skipn (Z.to_nat (pos ls idx + 1)) (all_idx ls)).
  { pose proof (znth_all_idx ls idx Hi) as Hz. unfold znth in Hz. replace (pos ls idx <? 0) with false in Hz by lia.
    rewrite (skipn_cons_nth _ _ _ Hz). do 2 f_equal. lia. }
  rewrite Hsk. cbn [combine forallb fst snd]. rewrite Hy.
  destruct (eqb p y); [|reflexivity]. cbn [andb].
  destruct pat as [|p2 pat'].
  - destruct (skipn _ _); reflexivity.
  - pose proof (inc_aux_spec ls idx Hi) as Hinc. unfold IncArrayIndex.
    destruct (inc_aux idx ls) as (idx' & c) eqn:Einc. destruct Hinc as (Hi' & Hc).
    rewrite zlen_cons in Hp, Hpn. pose proof (zlen_nonneg pat') as Hpn'.
    destruct c; [lia|]. cbn [fst]. rewrite IH; [rewrite Hc; reflexivity|exact Hi'|rewrite zlen_cons; lia].
Qed.
Lemma size_mono ls : forall rs, Forall2 (fun l r => 0 <= l <= r) ls rs -> 0 <= size ls <= size rs.
Proof. intros rs H. induction H as [|l r ls rs Hlr H IH]; cbn [size]; [lia|nia]. Qed.
Lemma pos_mono ls : forall rs, Forall2 (fun l r => 0 <= l <= r) ls rs -> forall o, inb ls o -> pos ls o <= pos rs o.
Proof.
  intros rs H. induction H as [|l r ls rs Hlr H IH]; intros o Ho; inversion Ho as [|? i ? o' Hi Ho']; subst; cbn [pos]; [lia|].
  specialize (IH o' Ho'). pose proof (size_mono ls rs H). nia.
Qed.
Lemma last_idx ls : Forall (fun d => 0 < d) ls -> exists o, inb ls o /\ pos ls o = size ls - 1.
Proof.
  intros H. induction H as [|d ls Hd H (o & Ho & Hp)]; [exists []; split; [constructor|reflexivity]|].
  exists ((d - 1) :: o). split; [constructor; [lia|exact Ho]|]. cbn [pos size]. lia.
Qed.
Lemma shift_inb_le ls : forall rs idx, Forall (fun d => 0 < d) ls -> inb rs idx -> length ls = length rs ->
  (forall o, inb ls o -> inb rs (shift idx o)) -> Forall2 (fun l r => 0 <= l <= r) ls rs.
Proof.
  induction ls as [|l ls IH]; intros [|r rs] idx Hls Hidx Hlen Hfit; try discriminate; [constructor|].
  inversion Hls as [|? ? Hl Hls']; subst. inversion Hidx as [|? i ? idx' Hi Hidx']; subst.
  assert (Hz : inb ls (zerosZ (length ls))) by (apply zeros_inb; exact Hls').
  constructor.
  - assert (Ho : inb (l :: ls) ((l - 1) :: zerosZ (length ls))) by (constructor; [lia|exact Hz]).
    apply Hfit in Ho. unfold shift in Ho. cbn [combine map fst snd] in Ho. inversion Ho; subst. lia.
  - apply (IH rs idx'); try assumption; [injection Hlen; auto|].
    intros o Ho. assert (Ho' : inb (l :: ls) (0 :: o)) by (constructor; [lia|exact Ho]).
    apply Hfit in Ho'. unfold shift in *. cbn [combine map fst snd] in Ho'. inversion Ho'; subst. assumption.
Qed.

Section FIND.
  Context {A : Type} (feq : A -> A -> outcome bool) (eqb : A -> A -> bool) (L R : arr A).
  Hypothesis HL : wf L.
  Hypothesis HR : wf R.
  Hypothesis Hrank : length (dims L) = length (dims R).
  Hypothesis Hf : forall x y, In y (elems R) -> feq x y = Ok (eqb x y).
  Hypothesis Hnp : forall i, 0 <= i -> i + size (dims L) <= size (dims R) ->
    forall o, inb (dims L) o -> i + pos (dims R) o < size (dims R).

  Definition found (i : Z) : bool :=
    if size (dims R) - i <? size (dims L) then false else
    forallb (fun p => match znth (elems R) (i + pos (dims R) (snd p)) with Some y => eqb (fst p) y | None => false end)
      (combine (elems L) (all_idx (dims L))).
  Lemma find_value : find feq (Arr L) (Arr R) = Ok (Arr (mkArr (dims R) (map found (zseq (size (dims R)))))).
  Proof.
    pose proof HL as (HL1 & HL2 & HL3). pose proof HR as (HR1 & HR2 & HR3).
    unfold find. cbn [asArr]. rewrite Prod_size by exact HR1. pose proof (size_nonneg _ HR2) as HRs.
    replace (size (dims R) <? 0) with false by lia.
    replace (zlen (dims R) <? zlen (dims L)) with false by (unfold zlen; lia).
    rewrite Hrank, Nat.sub_diag. cbn [Nat.ltb Nat.leb repeat app andb].
    unfold NewIdxConverter. destruct (dims R) as [|r0 rs0] eqn:ER; [congruence|]. rewrite <- ER in *. cbn [obind].
    rewrite HL3.
    rewrite (mapM_ok_map _ found); [reflexivity|].
    intros i Hi. apply In_zseq in Hi. unfold found.
    destruct (size (dims R) - i <? size (dims L)) eqn:E; [reflexivity|].
    destruct (Z.eq_dec (size (dims L)) 0) as [E0|E0].
    - assert (elems L = []) as ->; [|reflexivity]. destruct (elems L); [reflexivity|]. zlh HL3. pose proof (zlen_nonneg l). lia.
    - pose proof (size_nonneg _ HL2). assert (Hpos : Forall (fun d => 0 < d) (dims L)) by (apply size_pos_all; [exact HL2|lia]).
      rewrite <- Hrank.
      rewrite (find_at_spec feq eqb R (dims L) i HR Hrank Hf).
      + rewrite pos_zeros. cbn [Z.to_nat skipn]. reflexivity.
      + intros o Ho. rewrite HR3. split; [|apply Hnp; [lia|lia|exact Ho]].
        assert (0 <= pos (dims R) o); [|lia].
        clear - Ho HR2. revert o Ho. generalize (dims L). induction HR2 as [|d ds Hd HF IH]; intros ls o Ho; [destruct o; cbn; lia|].
        destruct o as [|j o]; [cbn; lia|]. inversion Ho as [|? ? ? ? Hj Ho']; subst. cbn [pos]. pose proof (size_nonneg _ HF).
        specialize (IH _ _ Ho'). nia.
      + apply zeros_inb. exact Hpos.
      + rewrite pos_zeros. lia.
  Qed.
  Lemma find_elem idx : inb (dims R) idx -> elem (mkArr (dims R) (map found (zseq (size (dims R))))) idx = Some (found (pos (dims R) idx)).
  Proof.
    intros Hi. unfold elem. cbn [dims elems]. pose proof (pos_range _ _ Hi). rewrite znth_map, znth_zseq by lia. reflexivity.
  Qed.
  Lemma found_pairs idx : inb (dims R) idx -> size (dims L) <= size (dims R) - pos (dims R) idx ->
    (found (pos (dims R) idx) = true <->
     forall o x, inb (dims L) o -> elem L o = Some x ->
       exists y, znth (elems R) (pos (dims R) (shift idx o)) = Some y /\ eqb x y = true).
  Proof.
    intros Hi Hn. unfold found. replace (size (dims R) - pos (dims R) idx <? size (dims L)) with false by lia.
    rewrite forallb_forall. pose proof HL as (HL1 & HL2 & HL3).
    pose proof (zlen_all_idx (dims L) HL2) as Hal.
    assert (Hsh : forall o, inb (dims L) o -> pos (dims R) (shift idx o) = pos (dims R) idx + pos (dims R) o).
    { intros o Ho. apply pos_shift; [apply inb_length; exact Hi|rewrite <- Hrank; apply inb_length; exact Ho]. }
    split.
    - intros H o x Ho Hx. specialize (H (x, o)). cbn [fst snd] in H. rewrite (Hsh o Ho).
      destruct (znth (elems R) (pos (dims R) idx + pos (dims R) o)) as [y|] eqn:Ey.
      + exists y. split; [reflexivity|]. apply H.
        pose proof (znth_all_idx _ _ Ho) as Ha. unfold elem in Hx.
        clear - Hx Ha. revert Hx Ha. generalize (pos (dims L) o) as k. generalize (all_idx (dims L)). induction (elems L) as [|z l IH]; intros m k Hx Ha.
        * rewrite znth_nil_ in Hx. discriminate.
        * destruct m as [|w m]; [rewrite znth_nil_ in Ha; discriminate|].
          pose proof (znth_some_range _ _ _ Hx). cbn [combine]. destruct (Z.eq_dec k 0) as [->|Hn].
          -- cbn in Hx, Ha. injection Hx as <-. injection Ha as <-. left. reflexivity.
          -- right. apply (IH m (k - 1)); [rewrite znth_cons_pos in Hx by lia; exact Hx|rewrite znth_cons_pos in Ha by lia; exact Ha].
      + exfalso. assert (false = true); [|discriminate]. apply H.
        pose proof (znth_all_idx _ _ Ho) as Ha. unfold elem in Hx.
        clear - Hx Ha. revert Hx Ha. generalize (pos (dims L) o) as k. generalize (all_idx (dims L)). induction (elems L) as [|z l IH]; intros m k Hx Ha.
        * rewrite znth_nil_ in Hx. discriminate.
        * destruct m as [|w m]; [rewrite znth_nil_ in Ha; discriminate|].
          pose proof (znth_some_range _ _ _ Hx). cbn [combine]. destruct (Z.eq_dec k 0) as [->|Hn].
          -- cbn in Hx, Ha. injection Hx as <-. injection Ha as <-. left. reflexivity.
          -- right. apply (IH m (k - 1)); [rewrite znth_cons_pos in Hx by lia; exact Hx|rewrite znth_cons_pos in Ha by lia; exact Ha].
    - intros H (x, o) Hin. cbn [fst snd].
      assert (Ho : inb (dims L) o) by (apply In_all_idx; eapply in_combine_r; exact Hin).
      assert (Hx : elem L o = Some x).
      { unfold elem. apply In_znth in Hin. destruct Hin as (k & Hk).
        assert (znth (elems L) k = Some x /\ znth (all_idx (dims L)) k = Some o) as (K1 & K2).
        { clear - Hk. revert k Hk. generalize (all_idx (dims L)). induction (elems L) as [|z l IH]; intros m k Hk.
          - cbn in Hk. rewrite znth_nil_ in Hk. discriminate.
          - destruct m as [|w m]; [cbn in Hk; rewrite znth_nil_ in Hk; discriminate|]. cbn [combine] in Hk.
            pose proof (znth_some_range _ _ _ Hk). destruct (Z.eq_dec k 0) as [->|Hn].
            + cbn in Hk. injection Hk as -> ->. split; reflexivity.
            + rewrite znth_cons_pos in Hk by lia. rewrite !znth_cons_pos by lia. apply IH. exact Hk. }
        pose proof (znth_all_idx _ _ Ho) as Ha.
        assert (k = pos (dims L) o) as <-; [|exact K1].
        eapply NoDup_znth; [|exact K2|exact Ha]. apply NoDup_all_idx. exact HL2. }
      destruct (H o x Ho Hx) as (y & Hy & He). rewrite (Hsh o Ho) in Hy. rewrite Hy. exact He.
  Qed.
  (* no occurrence is missed *)
  Lemma find_complete idx : inb (dims R) idx -> elems L <> [] -> occurs_at eqb L R idx -> found (pos (dims R) idx) = true.
  Proof.
    intros Hi Hne Ho. pose proof HL as (HL1 & HL2 & HL3). pose proof HR as (HR1 & HR2 & HR3).
    assert (Hs : 0 < size (dims L)) by (rewrite <- HL3; apply elems_pos; exact Hne).
    assert (Hpos : Forall (fun d => 0 < d) (dims L)) by (apply size_pos_all; [exact HL2|lia]).
    assert (Hex : forall o, inb (dims L) o -> exists x, elem L o = Some x).
    { intros o Hin. pose proof (pos_range _ _ Hin). apply znth_in_range. lia. }
    assert (Hfit : forall o, inb (dims L) o -> inb (dims R) (shift idx o)).
    { intros o Hin. destruct (Hex o Hin) as (x & Hx). apply (Ho o x Hin Hx). }
    pose proof (shift_inb_le _ _ _ Hpos Hi Hrank Hfit) as Hle.
    destruct (last_idx _ Hpos) as (o & Hin & Hp).
    pose proof (pos_mono _ _ Hle o Hin) as Hpm.
    pose proof (pos_range _ _ (Hfit o Hin)) as Hr. rewrite pos_shift in Hr; [|apply inb_length; exact Hi|rewrite <- Hrank; apply inb_length; exact Hin].
    apply found_pairs; [exact Hi|lia|]. intros o' x Ho' Hx. destruct (Ho o' x Ho' Hx) as (_ & y & Hy & He). exists y. split; assumption.
  Qed.
  (* where the pattern fits, a mark means an occurrence *)
  Lemma find_sound idx : inb (dims R) idx -> (forall o, inb (dims L) o -> inb (dims R) (shift idx o)) ->
    found (pos (dims R) idx) = true -> occurs_at eqb L R idx.
  Proof.
    intros Hi Hfit Hfo o x Ho Hx. split; [apply Hfit; exact Ho|].
    destruct (size (dims R) - pos (dims R) idx <? size (dims L)) eqn:E.
    - unfold found in Hfo. rewrite E in Hfo. discriminate.
    - apply (proj1 (found_pairs idx Hi ltac:(lia)) Hfo o x Ho Hx).
  Qed.
End FIND.
