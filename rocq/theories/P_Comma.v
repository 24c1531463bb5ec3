(* P_Comma.v -- catenate, laminate, ravel. *)
From Verif Require Import Base M_Array S_Array S_Structural P_Array M_Structural P_Reverse P_Transpose P_Take.

Lemma cat_shape_same s x i : x < i -> cat_shape s s x i = Ok s.
Proof.
  revert i. induction s as [|d r IH]; intros i H; [reflexivity|]. cbn [cat_shape].
  replace (i =? x) with false by lia. rewrite Z.eqb_refl. rewrite IH by lia. reflexivity.
Qed.

(* two shapes that agree except on axis x *)

Lemma agree_cons_0 l r ls rs : agree_but 0 (l :: ls) (r :: rs) -> ls = rs.
Proof.
  intros [Hz H]. rewrite !zlen_cons in Hz. apply znth_ext; [lia|]. intros i Hi.
  specialize (H (i + 1) ltac:(lia)). rewrite !znth_cons_pos in H by lia.
  replace (i + 1 - 1) with i in H by lia. exact H.
Qed.

Lemma agree_cons x l r ls rs : 0 < x -> agree_but x (l :: ls) (r :: rs) -> l = r /\ agree_but (x - 1) ls rs.
Proof.
  intros Hx [Hz H]. rewrite !zlen_cons in Hz. split.
  - specialize (H 0 ltac:(lia)). rewrite !znth_cons_0 in H. congruence.
  - split; [lia|]. intros j Hj. destruct (Z.lt_ge_cases j 0) as [Hn|Hp].
    + rewrite !(proj2 (znth_none _ _)) by lia. reflexivity.
    + specialize (H (j + 1) ltac:(lia)). rewrite !znth_cons_pos in H by lia.
      replace (j + 1 - 1) with j in H by lia. exact H.
Qed.

Lemma cat_shape_ok sl sr x i l r :
  agree_but (x - i) sl sr -> znth sl (x - i) = Some l -> znth sr (x - i) = Some r ->
  cat_shape sl sr x i = Ok (zupd sl (x - i) (l + r)).
Proof.
  revert sr i. induction sl as [|d sl IH]; intros sr i Ha Hl Hr.
  - apply znth_some_range in Hl. unfold zlen in Hl. simpl in Hl. lia.
  - destruct sr as [|e sr]; [apply znth_some_range in Hr; unfold zlen in Hr; simpl in Hr; lia|].
    cbn [cat_shape]. pose proof (znth_some_range _ _ _ Hl) as Hrg. destruct (Z.eq_dec i x) as [->|Hne].
    + rewrite Z.eqb_refl. replace (x - x) with 0 in * by lia. rewrite znth_cons_0 in *.
      inversion Hl; inversion Hr; subst. apply agree_cons_0 in Ha. subst sr.
      rewrite cat_shape_same by lia. reflexivity.
    + replace (i =? x) with false by lia. assert (Hxi : 0 < x - i) by lia. destruct (agree_cons _ _ _ _ _ Hxi Ha) as [-> Ha'].
      rewrite Z.eqb_refl. rewrite znth_cons_pos in Hl, Hr by lia.
      replace (x - i - 1) with (x - (i + 1)) in * by lia.
      rewrite (IH sr (i + 1) Ha' Hl Hr). cbn [obind]. f_equal.
      unfold zupd. replace (x - i <? 0) with false by lia. replace (x - (i + 1) <? 0) with false by lia.
      replace (Z.to_nat (x - i)) with (S (Z.to_nat (x - (i + 1)))) by lia. reflexivity.
Qed.

(* the shape check of catenate is exact *)
Lemma cat_shape_inv sl sr x i ns :
  zlen sl = zlen sr -> cat_shape sl sr x i = Ok ns -> agree_but (x - i) sl sr.
Proof.
  revert sr i ns. induction sl as [|d sl IH]; intros sr i ns Hz H.
  - destruct sr; [|unfold zlen in Hz; simpl in Hz; lia]. split; [reflexivity|]. reflexivity.
  - destruct sr as [|e sr]; [unfold zlen in Hz; simpl in Hz; lia|]. rewrite !zlen_cons in Hz.
    cbn [cat_shape] in H.
    assert (HR : exists t, cat_shape sl sr x (i + 1) = Ok t /\ (i = x \/ d = e)).
    { destruct (i =? x) eqn:E.
      - apply obind_ok in H. destruct H as (t & Ht & _). exists t. split; [exact Ht|lia].
      - destruct (d =? e) eqn:E2; [|discriminate]. apply obind_ok in H. destruct H as (t & Ht & _).
        exists t. split; [exact Ht|lia]. }
    destruct HR as (t & Ht & Hc). destruct (IH sr (i + 1) t ltac:(lia) Ht) as [_ Hag].
    split; [rewrite !zlen_cons; lia|]. intros j Hj. destruct (Z.eq_dec j 0) as [->|Hj0].
    + rewrite !znth_cons_0. f_equal. destruct Hc as [->|]; [lia|assumption].
    + destruct (Z.lt_ge_cases j 0).
      * rewrite !(proj2 (znth_none _ _)) by lia. reflexivity.
      * rewrite !znth_cons_pos by lia. apply Hag. lia.
Qed.

Lemma cat_shape_no_panic sl sr x i : zlen sl = zlen sr -> cat_shape sl sr x i <> Panic.
Proof.
  revert sr i. induction sl as [|d sl IH]; intros sr i Hz; [discriminate|].
  destruct sr as [|e sr]; [unfold zlen in Hz; simpl in Hz; lia|]. rewrite !zlen_cons in Hz. cbn [cat_shape].
  specialize (IH sr (i + 1) ltac:(lia)).
  destruct (i =? x); [|destruct (d =? e)]; destruct (cat_shape sl sr x (i + 1)); cbn [obind]; congruence.
Qed.

Lemma cat_shape_err sl sr x :
  zlen sl = zlen sr -> ~ agree_but x sl sr -> cat_shape sl sr x 0 = Err.
Proof.
  intros Hz Hn. destruct (cat_shape sl sr x 0) as [ns| |] eqn:E; [|reflexivity|].
  - apply cat_shape_inv in E; [|assumption]. replace (x - 0) with x in E by lia. contradiction.
  - apply cat_shape_no_panic in E; [contradiction|assumption].
Qed.

Lemma Forall_zupd (P : Z -> Prop) l k v : Forall P l -> P v -> Forall P (zupd l k v).
Proof.
  intros H Hv. apply Forall_znth. intros i x Hx. destruct (Z.eq_dec i k) as [->|Hne].
  - destruct (Z.lt_ge_cases k 0) as [Hk|Hk].
    + rewrite zupd_out in Hx by lia. eapply (proj1 (Forall_znth _ _) H); eassumption.
    + pose proof (znth_some_range _ _ _ Hx) as Hr. rewrite zlen_zupd in Hr.
      rewrite znth_zupd_same in Hx by lia. inversion Hx; subst; exact Hv.
  - rewrite znth_zupd_other in Hx by congruence. eapply (proj1 (Forall_znth _ _) H); eassumption.
Qed.

Lemma zupd_ne {A} (l : list A) k v : l <> [] -> zupd l k v <> [].
Proof.
  intros H E. apply H. apply (f_equal zlen) in E. rewrite zlen_zupd in E.
  destruct l; [reflexivity|]. zln. lia.
Qed.

Lemma join_ok {A} (al ar : arr A) x l r :
  wf al -> wf ar -> agree_but x (dims al) (dims ar) ->
  znth (dims al) x = Some l -> znth (dims ar) x = Some r ->
  exists res, cat_join al ar x = Ok (Arr res) /\ wf res /\
    dims res = zupd (dims al) x (l + r) /\
    forall idx i, inb (zupd (dims al) x (l + r)) idx -> znth idx x = Some i ->
      (i < l -> inb (dims al) idx /\ elem res idx = elem al idx) /\
      (l <= i -> inb (dims ar) (zupd idx x (i - l)) /\ elem res idx = elem ar (zupd idx x (i - l))).
Proof.
  intros Hwl Hwr Hag Hl Hr. unfold cat_join.
  assert (Hcs : cat_shape (dims al) (dims ar) x 0 = Ok (zupd (dims al) x (l + r))).
  { pose proof (cat_shape_ok (dims al) (dims ar) x 0 l r) as H. replace (x - 0) with x in H by lia. auto. }
  rewrite Hcs. cbn [obind]. rewrite (proj2 (zat_ok _ _ _) Hl). cbn [obind].
  rewrite !NewIdxConverter_ok by (apply wf_dims_ne; assumption). cbn [obind].
  pose proof (znth_some_range _ _ _ Hl) as Hxr.
  assert (Hl0 : 0 <= l) by (eapply (proj1 (Forall_znth _ _) (wf_nonneg _ Hwl)); eassumption).
  assert (Hr0 : 0 <= r) by (eapply (proj1 (Forall_znth _ _) (wf_nonneg _ Hwr)); eassumption).
  set (ns := zupd (dims al) x (l + r)).
  assert (Hns : znth ns x = Some (l + r)) by (apply znth_zupd_same; exact Hxr).
  assert (HL : forall idx i, inb ns idx -> znth idx x = Some i -> i < l -> inb (dims al) idx).
  { intros idx i Hin Hi Hlt. rewrite <- (zupd_id idx x i Hi).
    destruct (inb_coord _ _ _ _ Hin Hns) as (i' & Hi' & Hb). assert (i' = i) by congruence. subst i'.
    eapply (inb_upd ns); [exact Hin|symmetry; apply zlen_zupd| |exact Hl|lia].
    intros j Hj. unfold ns. rewrite znth_zupd_other by congruence. reflexivity. }
  assert (HR : forall idx i, inb ns idx -> znth idx x = Some i -> l <= i -> inb (dims ar) (zupd idx x (i - l))).
  { intros idx i Hin Hi Hge.
    destruct (inb_coord _ _ _ _ Hin Hns) as (i' & Hi' & Hb). assert (i' = i) by congruence. subst i'.
    destruct Hag as [Hz Hag].
    eapply (inb_upd ns); [exact Hin|unfold ns; rewrite zlen_zupd; lia| |exact Hr|lia].
    intros j Hj. unfold ns. rewrite znth_zupd_other by congruence. symmetry. apply Hag. exact Hj. }
  match goal with |- context [fill _ ?b] => set (body := b) end.
  destruct (fill_is_array ns body
    (fun idx => match znth idx x with
                | Some i => if l <=? i then elem ar (zupd idx x (i - l)) else elem al idx
                | None => None end)) as (res & Er & Hwres & Hdres & Hel).
  - apply zupd_ne. apply wf_dims_ne; assumption.
  - apply Forall_zupd; [apply wf_nonneg; assumption|lia].
  - intros idx Hin. destruct (inb_coord _ _ _ _ Hin Hns) as (i & Hi & Hb). rewrite Hi.
    unfold body. rewrite (proj2 (zat_ok _ _ _) Hi). cbn [obind]. destruct (l <=? i) eqn:E.
    + assert (Hin' := HR idx i Hin Hi ltac:(lia)). destruct (elem_some ar _ Hwr Hin') as (v & Hv).
      exists v. split; [apply At_elem; assumption|exact Hv].
    + assert (Hin' := HL idx i Hin Hi ltac:(lia)). destruct (elem_some al _ Hwl Hin') as (v & Hv).
      exists v. split; [apply At_elem; assumption|exact Hv].
  - rewrite Er. cbn [omap]. exists res. split; [reflexivity|]. split; [exact Hwres|]. split; [exact Hdres|].
    intros idx i Hin Hi. rewrite Hel by assumption. rewrite Hi. split; intros Hc.
    + replace (l <=? i) with false by lia. split; [eapply HL; eassumption|reflexivity].
    + replace (l <=? i) with true by lia. split; [eapply HR; eassumption|reflexivity].
Qed.

Lemma size_ne0_elems {A} (a : arr A) : wf a -> size (dims a) <> 0 -> (sizeOf (Arr a) =? 0) = false.
Proof. intros Hw H. unfold sizeOf. cbn [elemsOf]. rewrite (wf_len _ Hw). lia. Qed.

(* which axis a call of catenate joins along *)
Definition join_axis {A} (origin : Z) (L R : val A) (ax : cataxis) (x : Z) : Prop :=
  match ax with
  | AxNone => match R with Scal _ => x = 0 | _ => x = zlen (shapeOf R) - 1 end
  | AxInt n => x = n - origin /\ 0 <= x < Z.max (zlen (shapeOf L)) (zlen (shapeOf R))
  | AxFrac _ => False
  end.

Lemma splitCatAxis_join {A} origin (L R : val A) ax x :
  join_axis origin L R ax x -> splitCatAxis origin L R ax = Ok (x, false).
Proof.
  unfold join_axis, splitCatAxis. destruct ax as [|n|f]; [| |contradiction].
  - destruct R; intros ->; reflexivity.
  - intros [-> H].
    replace ((n - origin <? 0) || (Z.max (zlen (shapeOf L)) (zlen (shapeOf R)) <=? n - origin)) with false by lia.
    reflexivity.
Qed.

Lemma splitCatAxis_err {A} origin (L R : val A) n :
  ~ (0 <= n - origin < Z.max (zlen (shapeOf L)) (zlen (shapeOf R))) ->
  catenate origin L R (AxInt n) = Err.
Proof.
  intros H. unfold catenate, splitCatAxis.
  replace ((n - origin <? 0) || (Z.max (zlen (shapeOf L)) (zlen (shapeOf R)) <=? n - origin)) with true by lia.
  reflexivity.
Qed.

Lemma catenate_same_rank {A} origin (L R : arr A) ax x :
  wf L -> wf R -> size (dims L) <> 0 -> size (dims R) <> 0 ->
  zlen (dims L) = zlen (dims R) -> join_axis origin (Arr L) (Arr R) ax x ->
  catenate origin (Arr L) (Arr R) ax = cat_join L R x.
Proof.
  intros HL HR HsL HsR Hz Hx. unfold catenate. rewrite (splitCatAxis_join _ _ _ _ _ Hx). cbn [obind fst snd].
  rewrite !size_ne0_elems by assumption. rewrite !andb_false_r. cbn [asArr obind]. rewrite Hz.
  replace (zlen (dims R) - zlen (dims R)) with 0 by lia. reflexivity.
Qed.

Lemma catenate_mismatch {A} origin (L R : arr A) ax x :
  wf L -> wf R -> size (dims L) <> 0 -> size (dims R) <> 0 ->
  zlen (dims L) = zlen (dims R) -> join_axis origin (Arr L) (Arr R) ax x ->
  ~ agree_but x (dims L) (dims R) -> catenate origin (Arr L) (Arr R) ax = Err.
Proof.
  intros HL HR HsL HsR Hz Hx Hn. rewrite (catenate_same_rank _ _ _ _ _ HL HR HsL HsR Hz Hx).
  unfold cat_join. rewrite cat_shape_err by assumption. reflexivity.
Qed.

(* vectors *)
Lemma catenate_vec {A} origin (l r : list A) :
  catenate origin (Arr (vec l)) (Arr (vec r)) AxNone = Ok (Arr (vec (l ++ r))).
Proof.
  destruct l as [|x l].
  { unfold catenate. cbn. reflexivity. }
  destruct r as [|y r].
  { unfold catenate. cbn. rewrite app_nil_r. reflexivity. }
  set (l' := x :: l). set (r' := y :: r).
  pose proof (zlen_cons x l) as Zl. fold l' in Zl. pose proof (zlen_cons y r) as Zr. fold r' in Zr.
  pose proof (zlen_nonneg l). pose proof (zlen_nonneg r).
  rewrite (catenate_same_rank origin (vec l') (vec r') AxNone 0).
  2,3: apply wf_vec. 2,3: unfold vec; cbn [dims size]; lia. 2: reflexivity.
  2: cbn; reflexivity.
  destruct (join_ok (vec l') (vec r') 0 (zlen l') (zlen r')) as (res & E & Hw & Hd & Hel).
  1,2: apply wf_vec. 2,3: reflexivity.
  { split; [reflexivity|]. intros j Hj. unfold vec; cbn [dims].
    destruct (Z.lt_ge_cases j 0); [rewrite !(proj2 (znth_none _ _)) by lia; reflexivity|].
    rewrite !(proj2 (znth_none _ _)) by (unfold zlen; simpl; lia). reflexivity. }
  rewrite E. do 2 f_equal. unfold vec in Hd; cbn [dims zupd] in Hd. change (zupd [zlen l'] 0 (zlen l' + zlen r')) with [zlen l' + zlen r'] in Hd.
  rewrite (wf_vec_eq res _ Hw Hd). f_equal.
  destruct Hw as (_ & _ & Hlen). rewrite Hd in Hlen. cbn [size] in Hlen.
  apply znth_ext; [rewrite zlen_app; lia|]. intros i Hi.
  specialize (Hel [i] i). unfold vec in Hel. cbn [dims] in Hel.
  change (zupd [zlen l'] 0 (zlen l' + zlen r')) with [zlen l' + zlen r'] in Hel.
  rewrite inb_vec in Hel. specialize (Hel ltac:(lia) eq_refl). destruct Hel as [H1 H2].
  unfold elem in H1, H2. rewrite Hd in H1, H2. cbn [dims elems] in H1, H2.
  change (zupd [i] 0 (i - zlen l')) with [i - zlen l'] in H2. rewrite !pos_vec in H1, H2.
  destruct (Z.lt_ge_cases i (zlen l')) as [Hlt|Hge].
  - rewrite znth_app_l by lia. apply H1. exact Hlt.
  - rewrite znth_app_r by lia. apply H2. exact Hge.
Qed.

Lemma catenate_empty_left {A} origin (L R : val A) ax x :
  isArray L = true -> sizeOf L = 0 -> join_axis origin L R ax x -> catenate origin L R ax = Ok R.
Proof.
  intros HA Hs Hx. unfold catenate. rewrite (splitCatAxis_join _ _ _ _ _ Hx). cbn [obind fst snd].
  rewrite HA, Hs. reflexivity.
Qed.
Lemma catenate_empty_right {A} origin (L R : val A) ax x :
  isArray R = true -> sizeOf R = 0 -> sizeOf L <> 0 -> join_axis origin L R ax x -> catenate origin L R ax = Ok L.
Proof.
  intros HA Hs HL Hx. unfold catenate. rewrite (splitCatAxis_join _ _ _ _ _ Hx). cbn [obind fst snd].
  rewrite HA, Hs. replace (sizeOf L =? 0) with false by lia. rewrite andb_false_r. reflexivity.
Qed.

(* ---- inserting an axis of length one ---- *)
Lemma zlen_insert x v s : 0 <= x <= zlen s -> zlen (insert x v s) = zlen s + 1.
Proof.
  intros H. unfold insert, zlen in *. rewrite app_length. cbn [length]. rewrite firstn_length, skipn_length. lia.
Qed.
Lemma znth_insert x v s j : 0 <= x <= zlen s -> 0 <= j ->
  znth (insert x v s) j = if j <? x then znth s j else if j =? x then Some v else znth s (j - 1).
Proof.
  intros Hx Hj. unfold insert.
  assert (Hf : zlen (firstn (Z.to_nat x) s) = x) by (unfold zlen in *; rewrite firstn_length; lia).
  destruct (j <? x) eqn:E1.
  - rewrite znth_app_l by lia. apply znth_firstn. lia.
  - rewrite znth_app_r by lia. rewrite Hf. destruct (j =? x) eqn:E2.
    + replace (j - x) with 0 by lia. reflexivity.
    + rewrite znth_cons_pos by lia. rewrite znth_skipn by lia. f_equal. lia.
Qed.
Lemma insert_ne x v s : insert x v s <> [].
Proof. unfold insert. destruct (firstn (Z.to_nat x) s); discriminate. Qed.
Lemma insert_S x v d s : 0 <= x -> insert (x + 1) v (d :: s) = d :: insert x v s.
Proof. intros H. unfold insert. replace (Z.to_nat (x + 1)) with (S (Z.to_nat x)) by lia. reflexivity. Qed.
Lemma Forall_insert (P : Z -> Prop) x v s : Forall P s -> P v -> Forall P (insert x v s).
Proof.
  intros H Hv. unfold insert. apply Forall_app. split.
  - rewrite <- (firstn_skipn (Z.to_nat x) s) in H. apply Forall_app in H. apply H.
  - constructor; [exact Hv|]. rewrite <- (firstn_skipn (Z.to_nat x) s) in H. apply Forall_app in H. apply H.
Qed.
Lemma del_insert x v s : 0 <= x <= zlen s -> del x (insert x v s) = s.
Proof.
  intros H. apply znth_ext; [rewrite zlen_del, zlen_insert by (rewrite ?zlen_insert; lia); lia|].
  rewrite zlen_del, zlen_insert by (rewrite ?zlen_insert; lia). intros i Hi.
  rewrite znth_del by (rewrite ?zlen_insert; lia). rewrite znth_insert by (destruct (i <? x) eqn:E; lia).
  destruct (i <? x) eqn:E; [rewrite E; reflexivity|].
  replace (i + 1 <? x) with false by lia. replace (i + 1 =? x) with false by lia. f_equal. lia.
Qed.
Lemma insert_del x v s : znth s x = Some v -> insert x v (del x s) = s.
Proof.
  intros H. pose proof (znth_some_range _ _ _ H) as Hr.
  apply znth_ext; [rewrite zlen_insert, zlen_del by (rewrite ?zlen_del; lia); lia|].
  rewrite zlen_insert, zlen_del by (rewrite ?zlen_del; lia). intros i Hi.
  rewrite znth_insert by (rewrite ?zlen_del by lia; lia).
  destruct (i <? x) eqn:E.
  - rewrite znth_del by lia. rewrite E. reflexivity.
  - destruct (i =? x) eqn:E2; [replace i with x by lia; symmetry; exact H|].
    rewrite znth_del by lia. replace (i - 1 <? x) with false by lia. f_equal. lia.
Qed.

Lemma size_insert x v s : 0 <= x <= zlen s -> size (insert x v s) = v * size s.
Proof.
  revert x. induction s as [|d s IH]; intros x Hx.
  - unfold insert. destruct (Z.to_nat x); reflexivity.
  - rewrite zlen_cons in Hx. destruct (Z.eq_dec x 0) as [->|Hn]; [reflexivity|].
    replace x with (x - 1 + 1) by lia. rewrite insert_S by lia. cbn [size]. rewrite IH by lia. lia.
Qed.

Lemma pos_insert1 x s idx : 0 <= x <= zlen s -> zlen idx = zlen s ->
  pos (insert x 1 s) (insert x 0 idx) = pos s idx.
Proof.
  revert x idx. induction s as [|d s IH]; intros x idx Hx Hz.
  - destruct idx as [|i idx]; [|zln; lia].
    unfold insert. destruct (Z.to_nat x); reflexivity.
  - destruct idx as [|i idx]; [zln; lia|].
    rewrite !zlen_cons in Hz. rewrite zlen_cons in Hx. destruct (Z.eq_dec x 0) as [->|Hn].
    + unfold insert. cbn [Z.to_nat firstn skipn app]. cbn [pos size]. lia.
    + replace x with (x - 1 + 1) by lia. rewrite !insert_S by lia. cbn [pos].
      rewrite IH, size_insert by lia. lia.
Qed.

Lemma inb_insert x n i s idx : 0 <= x <= zlen s -> inb s idx -> 0 <= i < n -> inb (insert x n s) (insert x i idx).
Proof.
  intros Hx Hin Hi. pose proof (inb_zlen _ _ Hin) as Hz.
  apply inb_znth; [rewrite !zlen_insert by lia; lia|].
  intros k d j Hd Hj. pose proof (znth_some_range _ _ _ Hd) as Hr.
  rewrite znth_insert in Hd by lia. rewrite znth_insert in Hj by lia.
  destruct (k <? x); [eapply (Forall2_znth _ _ _ Hin); eassumption|].
  destruct (k =? x); [inversion Hd; inversion Hj; subst; lia|].
  eapply (Forall2_znth _ _ _ Hin); eassumption.
Qed.

(* the array a with an additional axis of length one at x *)
Lemma Reshape_insert1 {A} (a : arr A) x :
  wf a -> size (dims a) <> 0 -> 0 <= x <= zlen (dims a) ->
  Reshape a (insert x 1 (dims a)) = Ok (mkArr (insert x 1 (dims a)) (elems a)) /\
  wf (mkArr (insert x 1 (dims a)) (elems a)).
Proof.
  intros Hw Hs Hx.
  assert (Hw' : wf (mkArr (insert x 1 (dims a)) (elems a))).
  { split; [apply insert_ne|]. cbn [dims elems]. split.
    - apply Forall_insert; [apply wf_nonneg; assumption|lia].
    - rewrite size_insert by assumption. rewrite (wf_len _ Hw). lia. }
  split; [|exact Hw'].
  change (insert x 1 (dims a)) with (dims (mkArr (insert x 1 (dims a)) (elems a))) at 1.
  apply Reshape_self; [exact Hw'| |reflexivity].
  cbn [elems]. intros E. pose proof (wf_len _ Hw) as H. rewrite E in H. unfold zlen in H; simpl in H. lia.
Qed.

Lemma elem_insert1 {A} (a : arr A) x idx :
  0 <= x <= zlen (dims a) -> zlen idx = zlen (dims a) ->
  elem (mkArr (insert x 1 (dims a)) (elems a)) (insert x 0 idx) = elem a idx.
Proof. intros Hx Hz. unfold elem. cbn [dims elems]. rewrite pos_insert1 by assumption. reflexivity. Qed.

(* L of rank one less than R: L is one cell along the join axis *)
Lemma catenate_lower_left {A} origin (L R : arr A) ax x r :
  wf L -> wf R -> size (dims L) <> 0 -> size (dims R) <> 0 ->
  zlen (dims R) = zlen (dims L) + 1 -> join_axis origin (Arr L) (Arr R) ax x ->
  dims L = del x (dims R) -> znth (dims R) x = Some r ->
  exists res, catenate origin (Arr L) (Arr R) ax = Ok (Arr res) /\ wf res /\
    dims res = zupd (dims R) x (1 + r) /\
    forall idx i, inb (zupd (dims R) x (1 + r)) idx -> znth idx x = Some i ->
      (i = 0 -> elem res idx = elem L (del x idx)) /\
      (1 <= i -> elem res idx = elem R (zupd idx x (i - 1))).
Proof.
  intros HL HR HsL HsR Hz Hx Hd Hr. unfold catenate. rewrite (splitCatAxis_join _ _ _ _ _ Hx). cbn [obind fst snd].
  rewrite !size_ne0_elems by assumption. rewrite !andb_false_r. cbn [asArr obind]. rewrite Hz.
  replace (zlen (dims L) - (zlen (dims L) + 1)) with (-1) by lia. cbn [Z.eqb negb andb orb Z.ltb Z.compare].
  change (Pos.compare 1 1) with Eq. cbn.
  pose proof (znth_some_range _ _ _ Hr) as Hxr.
  replace ((x <? 0) || (zlen (dims L) <? x)) with false by lia.
  destruct (Reshape_insert1 L x HL HsL ltac:(lia)) as [ER HwL]. rewrite ER. cbn [obind].
  set (L' := mkArr (insert x 1 (dims L)) (elems L)) in *.
  assert (Hd1 : znth (insert x 1 (dims L)) x = Some 1).
  { rewrite znth_insert by lia. replace (x <? x) with false by lia. rewrite Z.eqb_refl. reflexivity. }
  destruct (join_ok L' R x 1 r HwL HR) as (res & E & Hw & Hdd & Hel).
  - unfold L'; cbn [dims]. split; [rewrite zlen_insert by lia; lia|]. intros j Hj.
    destruct (Z.lt_ge_cases j 0); [rewrite !(proj2 (znth_none _ _)) by lia; reflexivity|].
    rewrite znth_insert by lia. rewrite Hd. destruct (j <? x) eqn:E1.
    + rewrite znth_del by lia. rewrite E1. reflexivity.
    + replace (j =? x) with false by lia. rewrite znth_del by lia. replace (j - 1 <? x) with false by lia. f_equal. lia.
  - exact Hd1.
  - exact Hr.
  - assert (Hdims : zupd (dims L') x (1 + r) = zupd (dims R) x (1 + r)).
    { unfold L'; cbn [dims]. rewrite Hd. rewrite <- (insert_del x r (dims R) Hr) at 2.
      apply znth_ext; [rewrite !zlen_zupd, !zlen_insert by (rewrite zlen_del by lia; lia); reflexivity|].
      intros j Hj. rewrite zlen_zupd in Hj. destruct (Z.eq_dec j x) as [->|Hne].
      - rewrite !znth_zupd_same; [reflexivity|rewrite zlen_insert in * by (rewrite zlen_del by lia; lia); lia..].
      - rewrite !znth_zupd_other by congruence. rewrite !znth_insert by (rewrite ?zlen_del by lia; lia).
        replace (j =? x) with false by lia. reflexivity. }
    rewrite Hdims in Hdd, Hel. exists res. split; [exact E|]. split; [exact Hw|]. split; [exact Hdd|].
    intros idx i Hin Hi. destruct (Hel idx i Hin Hi) as [H1 H2]. split.
    + intros ->. destruct (H1 ltac:(lia)) as [_ ->].
      rewrite <- (insert_del x 0 idx Hi) at 1. apply elem_insert1; [lia|].
      pose proof (inb_zlen _ _ Hin) as Hz'. rewrite zlen_zupd in Hz'. rewrite zlen_del by lia. lia.
    + intros Hge. apply H2. exact Hge.
Qed.

Lemma catenate_lower_right {A} origin (L R : arr A) ax x l :
  wf L -> wf R -> size (dims L) <> 0 -> size (dims R) <> 0 ->
  zlen (dims L) = zlen (dims R) + 1 -> join_axis origin (Arr L) (Arr R) ax x ->
  dims R = del x (dims L) -> znth (dims L) x = Some l ->
  exists res, catenate origin (Arr L) (Arr R) ax = Ok (Arr res) /\ wf res /\
    dims res = zupd (dims L) x (l + 1) /\
    forall idx i, inb (zupd (dims L) x (l + 1)) idx -> znth idx x = Some i ->
      (i < l -> elem res idx = elem L idx) /\
      (i = l -> elem res idx = elem R (del x idx)).
Proof.
  intros HL HR HsL HsR Hz Hx Hd Hl. unfold catenate. rewrite (splitCatAxis_join _ _ _ _ _ Hx). cbn [obind fst snd].
  rewrite !size_ne0_elems by assumption. rewrite !andb_false_r. cbn [asArr obind]. rewrite Hz.
  replace (zlen (dims R) + 1 - zlen (dims R)) with 1 by lia. cbn [Z.eqb negb andb orb Z.ltb Z.compare].
  change (Pos.compare 2 1) with Gt. change (Pos.eqb 1 1) with true. cbn.
  pose proof (znth_some_range _ _ _ Hl) as Hxr.
  replace ((x <? 0) || (zlen (dims R) <? x)) with false by lia.
  destruct (Reshape_insert1 R x HR HsR ltac:(lia)) as [ER HwR]. rewrite ER. cbn [obind].
  set (R' := mkArr (insert x 1 (dims R)) (elems R)) in *.
  assert (Hd1 : znth (insert x 1 (dims R)) x = Some 1).
  { rewrite znth_insert by lia. replace (x <? x) with false by lia. rewrite Z.eqb_refl. reflexivity. }
  destruct (join_ok L R' x l 1 HL HwR) as (res & E & Hw & Hdd & Hel).
  - unfold R'; cbn [dims]. split; [rewrite zlen_insert by lia; lia|]. intros j Hj.
    destruct (Z.lt_ge_cases j 0); [rewrite !(proj2 (znth_none _ _)) by lia; reflexivity|].
    rewrite znth_insert by lia. rewrite Hd. destruct (j <? x) eqn:E1.
    + rewrite znth_del by lia. rewrite E1. reflexivity.
    + replace (j =? x) with false by lia. rewrite znth_del by lia. replace (j - 1 <? x) with false by lia. f_equal. lia.
  - exact Hl.
  - exact Hd1.
  - exists res. split; [exact E|]. split; [exact Hw|]. split; [exact Hdd|].
    intros idx i Hin Hi. destruct (Hel idx i Hin Hi) as [H1 H2]. split.
    + intros Hlt. apply H1. exact Hlt.
    + intros ->. destruct (H2 ltac:(lia)) as [_ ->]. replace (l - l) with 0 by lia.
      pose proof (inb_zlen _ _ Hin) as Hz'. rewrite zlen_zupd in Hz'.
      assert (Hi0 : znth (zupd idx x 0) x = Some 0) by (apply znth_zupd_same; lia).
      rewrite <- (insert_del x 0 _ Hi0).
      replace (del x (zupd idx x 0)) with (del x idx).
      * apply elem_insert1; [lia|]. rewrite zlen_del by lia. lia.
      * apply znth_ext; [rewrite !zlen_del by (rewrite ?zlen_zupd; lia); rewrite zlen_zupd; lia|].
        intros j Hj. rewrite !znth_del by (rewrite ?zlen_zupd; lia).
        rewrite znth_zupd_other; [reflexivity|]. destruct (j <? x) eqn:E1; lia.
Qed.

(* scalar extension along the join axis *)
Lemma const_arr_wf {A} (v : A) sh : sh <> [] -> Forall (fun d => 0 <= d) sh ->
  wf (mkArr sh (repeat v (Z.to_nat (Prod sh)))).
Proof.
  intros Hne Hnn. split; [exact Hne|]. cbn [dims elems]. split; [exact Hnn|].
  rewrite zlen_repeat, Prod_size by assumption. pose proof (size_nonneg _ Hnn). lia.
Qed.
Lemma const_arr_elem {A} (v : A) sh idx : inb sh idx -> sh <> [] ->
  elem (mkArr sh (repeat v (Z.to_nat (Prod sh)))) idx = Some v.
Proof.
  intros Hin Hne. unfold elem. cbn [dims elems]. pose proof (pos_range _ _ Hin).
  rewrite Prod_size by assumption. apply znth_repeat. lia.
Qed.
Lemma agree_zupd x s v : agree_but x (zupd s x v) s.
Proof. split; [apply zlen_zupd|]. intros j Hj. apply znth_zupd_other. congruence. Qed.
Lemma agree_sym x s t : agree_but x s t -> agree_but x t s.
Proof. intros [H1 H2]. split; [lia|]. intros j Hj. symmetry. auto. Qed.

Lemma catenate_scalar_left {A} origin (s : A) (R : arr A) ax x r :
  wf R -> size (dims R) <> 0 -> join_axis origin (Scal s) (Arr R) ax x ->
  znth (dims R) x = Some r ->
  exists res, catenate origin (Scal s) (Arr R) ax = Ok (Arr res) /\ wf res /\
    dims res = zupd (dims R) x (1 + r) /\
    forall idx i, inb (zupd (dims R) x (1 + r)) idx -> znth idx x = Some i ->
      (i = 0 -> elem res idx = Some s) /\
      (1 <= i -> elem res idx = elem R (zupd idx x (i - 1))).
Proof.
  intros HR HsR Hx Hr. unfold catenate. rewrite (splitCatAxis_join _ _ _ _ _ Hx). cbn [obind fst snd isArray andb shapeOf].
  rewrite !size_ne0_elems by assumption. pose proof (znth_some_range _ _ _ Hr) as Hxr.
  replace ((x <? 0) || (zlen (dims R) <=? x)) with false by lia. cbn [asArr obind dims]. rewrite zlen_zupd.
  replace (zlen (dims R) - zlen (dims R)) with 0 by lia. cbn [Z.eqb negb andb obind].
  set (ns := zupd (dims R) x 1).
  assert (Hne : ns <> []) by (apply zupd_ne; apply wf_dims_ne; assumption).
  assert (Hw0 : wf (mkArr ns (repeat s (Z.to_nat (Prod ns))))).
  { apply const_arr_wf; [exact Hne|]. apply Forall_zupd; [apply wf_nonneg; assumption|lia]. }
  destruct (join_ok (mkArr ns (repeat s (Z.to_nat (Prod ns)))) R x 1 r Hw0 HR) as (res & E & Hw & Hdd & Hel).
  - apply agree_zupd.
  - cbn [dims]. apply znth_zupd_same. lia.
  - exact Hr.
  - cbn [dims] in Hdd, Hel. unfold ns in Hdd, Hel. rewrite zupd_zupd in Hdd, Hel. exists res.
    split; [exact E|]. split; [exact Hw|]. split; [exact Hdd|].
    intros idx i Hin Hi. destruct (Hel idx i Hin Hi) as [H1 H2]. split.
    + intros ->. destruct (H1 ltac:(lia)) as [Hin' ->]. apply const_arr_elem; assumption.
    + intros Hge. apply H2. exact Hge.
Qed.

Lemma catenate_scalar_right {A} origin (s : A) (L : arr A) ax x l :
  wf L -> size (dims L) <> 0 -> join_axis origin (Arr L) (Scal s) ax x ->
  znth (dims L) x = Some l ->
  exists res, catenate origin (Arr L) (Scal s) ax = Ok (Arr res) /\ wf res /\
    dims res = zupd (dims L) x (l + 1) /\
    forall idx i, inb (zupd (dims L) x (l + 1)) idx -> znth idx x = Some i ->
      (i < l -> elem res idx = elem L idx) /\
      (i = l -> elem res idx = Some s).
Proof.
  intros HL HsL Hx Hr. unfold catenate. rewrite (splitCatAxis_join _ _ _ _ _ Hx). cbn [obind fst snd isArray andb shapeOf].
  rewrite !size_ne0_elems by assumption. pose proof (znth_some_range _ _ _ Hr) as Hxr.
  cbn [asArr obind dims].
  replace ((x <? 0) || (zlen (dims L) <=? x)) with false by lia. cbn [obind dims]. rewrite zlen_zupd.
  replace (zlen (dims L) - zlen (dims L)) with 0 by lia. cbn [Z.eqb negb andb obind].
  set (ns := zupd (dims L) x 1).
  assert (Hne : ns <> []) by (apply zupd_ne; apply wf_dims_ne; assumption).
  assert (Hw0 : wf (mkArr ns (repeat s (Z.to_nat (Prod ns))))).
  { apply const_arr_wf; [exact Hne|]. apply Forall_zupd; [apply wf_nonneg; assumption|lia]. }
  destruct (join_ok L (mkArr ns (repeat s (Z.to_nat (Prod ns)))) x l 1 HL Hw0) as (res & E & Hw & Hdd & Hel).
  - apply agree_sym, agree_zupd.
  - exact Hr.
  - cbn [dims]. apply znth_zupd_same. lia.
  - exists res. split; [exact E|]. split; [exact Hw|]. split; [exact Hdd|].
    intros idx i Hin Hi. destruct (Hel idx i Hin Hi) as [H1 H2]. split.
    + intros Hlt. apply H1. exact Hlt.
    + intros ->. destruct (H2 ltac:(lia)) as [Hin' ->]. apply const_arr_elem; assumption.
Qed.

Lemma catenate_rank_err {A} origin (L R : arr A) ax x :
  wf L -> wf R -> size (dims L) <> 0 -> size (dims R) <> 0 ->
  join_axis origin (Arr L) (Arr R) ax x ->
  zlen (dims L) + 2 <= zlen (dims R) \/ zlen (dims R) + 3 <= zlen (dims L) ->
  catenate origin (Arr L) (Arr R) ax = Err.
Proof.
  intros HL HR HsL HsR Hx Hd. unfold catenate. rewrite (splitCatAxis_join _ _ _ _ _ Hx). cbn [obind fst snd].
  rewrite !size_ne0_elems by assumption. rewrite !andb_false_r. cbn [asArr obind].
  replace (negb (zlen (dims L) - zlen (dims R) =? 0) &&
    ((zlen (dims L) - zlen (dims R) <? -1) || (2 <? zlen (dims L) - zlen (dims R)))) with true by lia.
  reflexivity.
Qed.

(* ---- laminate ---- *)
Lemma laminate_ok {A} (L R : arr A) x :
  wf L -> wf R -> dims L = dims R -> 0 <= x <= zlen (dims L) ->
  exists res, laminate (Arr L) (Arr R) x = Ok (Arr res) /\ wf res /\
    dims res = insert x 2 (dims L) /\
    forall idx, inb (dims L) idx ->
      elem res (insert x 0 idx) = elem L idx /\ elem res (insert x 1 idx) = elem R idx.
Proof.
  intros HL HR Hd Hx. unfold laminate. cbn [asArr]. rewrite <- Hd. rewrite Z.eqb_refl. cbn [negb].
  assert (Hf : forallb (fun p => fst p =? snd p) (combine (dims L) (dims L)) = true).
  { generalize (dims L). intros l. induction l as [|d r IH]; [reflexivity|]. cbn. rewrite Z.eqb_refl. exact IH. }
  rewrite Hf. cbn [negb]. replace ((x <? 0) || (zlen (dims L) <? x)) with false by lia.
  rewrite NewIdxConverter_ok by (apply wf_dims_ne; assumption). cbn [obind].
  match goal with |- context [fill _ ?b] => set (body := b) end.
  assert (Hax : znth (insert x 2 (dims L)) x = Some 2).
  { rewrite znth_insert by lia. replace (x <? x) with false by lia. rewrite Z.eqb_refl. reflexivity. }
  destruct (fill_is_array (insert x 2 (dims L)) body
    (fun idx => match znth idx x with
                | Some i => if i =? 0 then elem L (del x idx) else elem R (del x idx)
                | None => None end)) as (res & Er & Hw & Hdr & Hel).
  - apply insert_ne.
  - apply Forall_insert; [apply wf_nonneg; assumption|lia].
  - intros idx Hin. destruct (inb_coord _ _ _ _ Hin Hax) as (i & Hi & Hb). rewrite Hi.
    assert (Hin' : inb (dims L) (del x idx)).
    { rewrite <- (del_insert x 2 (dims L) ltac:(lia)). apply inb_del; [exact Hin|rewrite zlen_insert by lia; lia]. }
    unfold body. rewrite (proj2 (zat_ok _ _ _) Hi). cbn [obind]. fold (del x idx).
    destruct (i =? 0).
    + destruct (elem_some L _ HL Hin') as (v & Hv). exists v. split; [apply At_elem; assumption|exact Hv].
    + pose proof Hin' as Hin2. rewrite Hd in Hin2. destruct (elem_some R _ HR Hin2) as (v & Hv).
      exists v. rewrite Hd. split; [apply At_elem; assumption|exact Hv].
  - rewrite Er. cbn [omap]. exists res. split; [reflexivity|]. split; [exact Hw|]. split; [exact Hdr|].
    intros idx Hin. pose proof (inb_zlen _ _ Hin) as Hz. split.
    + rewrite Hel by (apply inb_insert; [lia|exact Hin|lia]).
      rewrite znth_insert by lia. replace (x <? x) with false by lia. rewrite Z.eqb_refl, del_insert by lia. reflexivity.
    + rewrite Hel by (apply inb_insert; [lia|exact Hin|lia]).
      rewrite znth_insert by lia. replace (x <? x) with false by lia. rewrite Z.eqb_refl, del_insert by lia. reflexivity.
Qed.

Lemma laminate_shape_err {A} (L R : arr A) x :
  dims L <> dims R -> laminate (Arr L) (Arr R) x = Err.
Proof.
  intros Hne. unfold laminate. cbn [asArr]. destruct (zlen (dims L) =? zlen (dims R)) eqn:E; [|reflexivity]. cbn [negb].
  destruct (forallb (fun p => fst p =? snd p) (combine (dims L) (dims R))) eqn:F; [|reflexivity]. exfalso. apply Hne.
  assert (Hz : zlen (dims L) = zlen (dims R)) by lia. clear E Hne. revert F Hz. generalize (dims L), (dims R).
  intros l. induction l as [|d l IH]; intros r F Hz; destruct r as [|e r].
  - reflexivity.
  - zln. lia.
  - zln. lia.
  - rewrite !zlen_cons in Hz. cbn in F. apply andb_prop in F. destruct F as [F1 F2].
    f_equal; [lia|]. apply IH; [exact F2|lia].
Qed.

(* a scalar is extended to the other's shape *)
Lemma laminate_scalar_left {A} (s : A) (R : arr A) x :
  wf R -> 0 <= x <= zlen (dims R) ->
  exists res, laminate (Scal s) (Arr R) x = Ok (Arr res) /\ wf res /\
    dims res = insert x 2 (dims R) /\
    forall idx, inb (dims R) idx ->
      elem res (insert x 0 idx) = Some s /\ elem res (insert x 1 idx) = elem R idx.
Proof.
  intros HR Hx.
  assert (Hw : wf (mkArr (dims R) (repeat s (Z.to_nat (Prod (dims R))))))
    by (apply const_arr_wf; [apply wf_dims_ne|apply wf_nonneg]; assumption).
  destruct (laminate_ok _ R x Hw HR eq_refl Hx) as (res & E & H1 & H2 & H3).
  exists res. split; [exact E|]. split; [exact H1|]. split; [exact H2|].
  intros idx Hin. destruct (H3 idx Hin) as [Ha Hb]. split; [|exact Hb].
  rewrite Ha. apply const_arr_elem; [exact Hin|apply wf_dims_ne; assumption].
Qed.

(* the fractional axis of , : X-0.5 for X in origin..origin+rank *)
Lemma catenate_laminate {A} origin (L R : val A) f :
  -1 <= f - origin <= Z.max (zlen (shapeOf L)) (zlen (shapeOf R)) ->
  catenate origin L R (AxFrac f) = laminate L R (f - origin + 1).
Proof.
  intros H. unfold catenate, splitCatAxis.
  replace ((f - origin <? -1) || (Z.max (zlen (shapeOf L)) (zlen (shapeOf R)) <? f - origin)) with false by lia.
  reflexivity.
Qed.

(* ---- ravel ---- *)
Lemma ravel_ok {A} (a : arr A) : ravel (Arr a) = Arr (vec (elems a)).
Proof. reflexivity. Qed.

(* the ravel order is the row-major order of the indexes *)
Lemma ravel_order {A} (a : arr A) k idx :
  wf a -> znth (all_idx (dims a)) k = Some idx -> znth (elems a) k = elem a idx.
Proof.
  intros Hw H. pose proof (znth_In _ _ _ H) as Hin. apply In_all_idx in Hin.
  pose proof (znth_all_idx _ _ Hin) as Hp. unfold elem.
  assert (Hk : k = pos (dims a) idx).
  { destruct (Z.eq_dec k (pos (dims a) idx)) as [E|E]; [exact E|]. exfalso.
    pose proof (znth_some_range _ _ _ H) as Hr. rewrite zlen_all_idx in Hr by (apply wf_nonneg; assumption).
    destruct (ic_indexes_spec (dims a) k (wf_nonneg _ Hw) Hr) as (i2 & _ & Hi2 & Hp2).
    pose proof (znth_all_idx _ _ Hi2) as Hq. rewrite Hp2, H in Hq. inversion Hq. subst i2. apply E. symmetry. exact Hp2. }
  rewrite Hk. reflexivity.
Qed.

Lemma size_app s t : size (s ++ t) = size s * size t.
Proof. induction s as [|d s IH]; cbn [app size]; [lia|]. rewrite IH. lia. Qed.

(* merging consecutive axes keeps the elements and their order *)
Lemma ravelAxes_ok {A} (z : A) (a : arr A) pre mid post x :
  wf a -> size (dims a) <> 0 ->
  dims a = pre ++ mid ++ post -> (2 <= length mid)%nat ->
  x = map (fun i => zlen pre + i) (zseq (zlen mid)) ->
  ravelAxes z (Arr a) x = Ok (Arr (mkArr (pre ++ [size mid] ++ post) (elems a))).
Proof.
  intros Hw Hs Hd Hm Hx. unfold ravelAxes.
  assert (Hc : consecutive x = true).
  { subst x. unfold zseq. generalize (Z.to_nat (zlen mid)), 0%nat. intros n. induction n as [|n IH]; intros s; [reflexivity|].
    cbn [seq map consecutive]. specialize (IH (S s)). destruct n as [|n]; [reflexivity|].
    cbn [seq map] in *. rewrite IH. rewrite andb_true_r. lia. }
  rewrite Hc. cbn [negb].
  assert (Hzx : length x = length mid).
  { subst x. rewrite map_length. unfold zseq. rewrite map_length, seq_length. unfold zlen. lia. }
  destruct x as [|x0 [|x1 xr]] eqn:Ex; [simpl in Hzx; lia|simpl in Hzx; lia|].
  rewrite <- Ex in *. cbn [asArr].
  assert (Hx0 : x0 = zlen pre).
  { rewrite Hx in Ex. assert (H : zlen mid > 0) by (unfold zlen; lia). rewrite zseq_cons in Ex by lia. cbn [map] in Ex.
    inversion Ex. lia. }
  assert (Hmap : mapM (fun n => zat (dims a) n) x = Ok mid).
  { rewrite Hx, mapM_map. apply mapM_Forall2. apply Forall2_from_znth; [rewrite zlen_zseq; pose proof (zlen_nonneg mid); lia|].
    intros i y d Hi Hdd. pose proof (znth_some_range _ _ _ Hdd) as Hr. rewrite znth_zseq in Hi by lia. inversion Hi; subst y.
    apply zat_ok. rewrite Hd. rewrite znth_app_r by lia. rewrite znth_app_l by lia. rewrite <- Hdd. f_equal. lia. }
  rewrite Hmap. cbn [obind]. rewrite fold_mul_acc. rewrite Z.mul_1_l.
  rewrite Hx0. unfold zlen. rewrite Nat2Z.id, Hzx.
  replace (firstn (length pre) (dims a)) with pre
    by (rewrite Hd, firstn_app, Nat.sub_diag, firstn_all; cbn [firstn]; rewrite app_nil_r; reflexivity).
  replace (skipn (length pre + length mid) (dims a)) with post.
  2:{ rewrite Hd. rewrite app_assoc. rewrite skipn_app, app_length.
      rewrite skipn_all2 by (rewrite app_length; lia). rewrite Nat.sub_diag. reflexivity. }
  set (nd := pre ++ size mid :: post).
  assert (Hw' : wf (mkArr nd (elems a))).
  { split; [unfold nd; destruct pre; discriminate|]. cbn [dims elems]. pose proof (wf_nonneg _ Hw) as Hnn. rewrite Hd in Hnn.
    apply Forall_app in Hnn. destruct Hnn as [Hp Hnn]. apply Forall_app in Hnn. destruct Hnn as [Hmm Hpp]. split.
    - unfold nd. apply Forall_app. split; [exact Hp|]. constructor; [apply size_nonneg; exact Hmm|exact Hpp].
    - rewrite (wf_len _ Hw), Hd. unfold nd. rewrite !size_app. cbn [size]. lia. }
  replace (Reshape a nd) with (Ok (mkArr nd (elems a))); [reflexivity|]. symmetry.
  change nd with (dims (mkArr nd (elems a))) at 1. apply Reshape_self; [exact Hw'| |reflexivity].
  cbn [elems]. intros E. pose proof (wf_len _ Hw) as H. rewrite E in H. unfold zlen in H; simpl in H. lia.
Qed.
