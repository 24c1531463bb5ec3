(* P_Replicate.v -- proofs about replicate, compress, expand and the tack
   reductions. *)
From Verif Require Import Base M_Array S_Array S_Structural P_Array M_Structural
  P_Reverse P_Transpose P_Take P_Comma Eff S_Reduce M_Reduce P_Reduce P_Nwise.

(* ---- the axis map ---- *)
Lemma axismap_spec {A} (z : A) ai : forall (l : list A) q, zlen ai = zlen l -> 0 <= q ->
  zlen (axismap q ai) = zlen (replicated z ai l) /\
  forall i m, znth (axismap q ai) i = Some m ->
    (m = -1 \/ q <= m < q + zlen l) /\
    znth (replicated z ai l) i = if m =? -1 then Some z else znth l (m - q).
Proof.
  induction ai as [|c ai IH]; intros l q Hl Hq.
  - destruct l as [|x l]; [|zln; lia]. cbn [axismap replicated]. split; [reflexivity|].
    intros i m H. apply znth_In in H. destruct H.
  - destruct l as [|x l]; [zln; lia|]. rewrite !zlen_cons in Hl. cbn [axismap replicated].
    destruct (IH l (q + 1)) as [I1 I2]; [lia|lia|].
    set (h := if 0 <? c then repeat q (Z.to_nat c) else repeat (-1) (Z.to_nat (- c))).
    assert (Hh : zlen h = zlen (copies z c x) /\ forall i m, znth h i = Some m ->
      (m = -1 \/ m = q) /\ znth (copies z c x) i = if m =? -1 then Some z else Some x).
    { unfold h, copies. destruct (Z.ltb_spec 0 c) as [Hc|Hc].
      - replace (0 <=? c) with true by lia. rewrite !zlen_repeat. split; [reflexivity|]. intros i m H.
        pose proof (znth_some_range _ _ _ H) as Hi. rewrite zlen_repeat in Hi.
        rewrite znth_repeat in H by lia. inversion H; subst m. rewrite znth_repeat by lia.
        replace (q =? -1) with false by lia. auto.
      - destruct (Z.leb_spec 0 c).
        + replace c with 0 by lia. cbn [Z.opp Z.to_nat repeat]. split; [reflexivity|]. intros i m H1.
          apply znth_In in H1. destruct H1.
        + rewrite !zlen_repeat. split; [reflexivity|]. intros i m H1.
          pose proof (znth_some_range _ _ _ H1) as Hi. rewrite zlen_repeat in Hi.
          rewrite znth_repeat in H1 by lia. inversion H1; subst m. rewrite znth_repeat by lia. auto. }
    destruct Hh as [H1 H2]. pose proof (zlen_nonneg l) as Hzl. split; [rewrite !zlen_app; lia|].
    intros i m H. destruct (Z.lt_ge_cases i (zlen h)) as [Hi|Hi].
    + rewrite znth_app_l in H by exact Hi. rewrite znth_app_l by lia.
      destruct (H2 i m H) as [[->| ->] H3]; rewrite H3.
      * split; [left; reflexivity|reflexivity].
      * split; [right; zln; lia|]. replace (q =? -1) with false by lia. rewrite Z.sub_diag. reflexivity.
    + rewrite znth_app_r in H by exact Hi. rewrite znth_app_r by lia. rewrite <- H1.
      destruct (I2 _ _ H) as [Hm H3]. rewrite H3. split; [zln; lia|].
      destruct (Z.eqb_spec m (-1)); [reflexivity|]. rewrite znth_cons_pos by lia. f_equal. lia.
Qed.

Lemma zlen_replicated_le {A} (z : A) ai l : 0 <= zlen (replicated z ai l).
Proof. apply zlen_nonneg. Qed.

(* rows_at from an element-wise description *)
Lemma rows_at_intro {A} ds k n (rowf : list Z -> list A) (r : arr A) :
  wf r -> dims r = ds -> znth ds k = Some n ->
  (forall j, inb (del k ds) j -> zlen (rowf j) = n /\
     forall i, 0 <= i < n -> elem r (ins k i j) = znth (rowf j) i) ->
  rows_at ds k (all_idx (del k ds)) (map rowf (all_idx (del k ds))) r.
Proof.
  intros Hw Hd Hn H. split; [exact Hw|]. split; [exact Hd|].
  assert (HF : Forall (inb (del k ds)) (all_idx (del k ds))).
  { apply Forall_forall. intros j Hj. apply In_all_idx. exact Hj. }
  induction HF as [|j js Hj HF IH]; [constructor|]. cbn [map]. constructor; [|exact IH].
  destruct (H j Hj) as [H1 H2]. rewrite H1. split; [exact Hn|exact H2].
Qed.

Lemma inb_split ds k n idx : znth ds k = Some n -> inb ds idx ->
  exists i, 0 <= i < n /\ znth idx k = Some i /\ inb (del k ds) (del k idx) /\ idx = ins k i (del k idx).
Proof.
  intros Hn Hin. pose proof (znth_some_range _ _ _ Hn) as Hk. pose proof (inb_zlen _ _ Hin) as Hz.
  destruct (znth_in_range idx k) as (i & Hi); [lia|]. exists i.
  assert (Hr : 0 <= i < n) by (eapply (Forall2_znth _ _ _ Hin); eassumption).
  split; [exact Hr|]. split; [exact Hi|]. split; [apply inb_del; assumption|].
  symmetry. apply (insert_del k i idx Hi).
Qed.

(* ---- general replicate (the fill loop) ---- *)
Lemma replicate_fill {A} (zero : A) ai (a : arr A) k n :
  wf a -> znth (dims a) k = Some n -> zlen ai = n ->
  let am := axismap 0 ai in
  exists r, fill (zupd (dims a) k (zlen am)) (fun dst =>
      let* q := zat dst k in
      let* m := zat am q in
      if m =? -1 then Ok zero else At a (ic_index (strides (dims a)) (zupd dst k m))) = Ok r /\
    rows_at (zupd (dims a) k (zlen am)) k (all_idx (del k (dims a)))
      (map (fun j => replicated zero ai (line a k n j)) (all_idx (del k (dims a)))) r.
Proof.
  intros Hw Hn Hai am. pose proof (znth_some_range _ _ _ Hn) as Hk.
  pose proof (wf_nonneg _ Hw) as Hnn. pose proof (wf_dims_ne _ Hw) as Hne.
  pose proof (zlen_nonneg am) as Hal.
  set (ds := zupd (dims a) k (zlen am)).
  assert (Hdsne : ds <> []) by (apply zupd_ne; exact Hne).
  assert (Hdsn : Forall (fun d => 0 <= d) ds) by (apply Forall_zupd; [exact Hnn|lia]).
  assert (Hdsm : znth ds k = Some (zlen am)) by (apply znth_zupd_same; lia).
  assert (Hdel : del k ds = del k (dims a)) by (apply del_zupd; lia).
  set (g := fun idx => match znth idx k with
                       | Some i => znth (replicated zero ai (line a k n (del k idx))) i
                       | None => None end).
  assert (Hg : forall i j, 0 <= k <= zlen j -> g (ins k i j) = znth (replicated zero ai (line a k n j)) i).
  { intros i j Hj. unfold g. rewrite ins_insert, znth_insert by lia. rewrite Z.ltb_irrefl, Z.eqb_refl.
    rewrite del_insert by lia. reflexivity. }
  destruct (fill_is_array ds (fun dst =>
      let* q := zat dst k in
      let* m := zat am q in
      if m =? -1 then Ok zero else At a (ic_index (strides (dims a)) (zupd dst k m))) g Hdsne Hdsn) as (r & E & Hr).
  - intros idx Hin. destruct (inb_split ds k _ idx Hdsm Hin) as (i & Hi & Hik & Hj & Hidx).
    rewrite Hdel in Hj. pose proof (zlen_inb_del _ _ _ Hk Hj) as Hz.
    destruct (line_ok a k n _ Hw Hn Hj) as [L1 L2].
    destruct (axismap_spec zero ai (line a k n (del k idx)) 0) as [M1 M2]; [lia|lia|].
    destruct (znth_in_range am i Hi) as (m & Hm). destruct (M2 i m Hm) as [Hrange Hrep].
    unfold g. rewrite Hik, Hrep. unfold zat. rewrite Hik. cbn [obind]. rewrite Hm. cbn [obind].
    destruct (Z.eqb_spec m (-1)) as [Em|Em].
    + exists zero. auto.
    + assert (Hmr : 0 <= m < n) by lia. rewrite Z.sub_0_r. rewrite L2 by lia.
      assert (Ez : zupd idx k m = ins k m (del k idx)) by (rewrite Hidx at 1; apply zupd_ins; lia). rewrite Ez.
      assert (Hin2 : inb (dims a) (ins k m (del k idx))) by (apply (inb_ins _ _ n); assumption).
      destruct (elem_some a _ Hw Hin2) as (x & Hx). exists x. split; [|exact Hx].
      rewrite ic_index_pos by (apply inb_length; exact Hin2). apply zat_ok. exact Hx.
  - exists r. split; [exact E|]. destruct Hr as (Hwr & Hdr & Hel). fold ds.
    rewrite <- Hdel. apply (rows_at_intro ds k (zlen am)); [exact Hwr|exact Hdr|exact Hdsm|].
    intros j Hj. rewrite Hdel in Hj. pose proof (zlen_inb_del _ _ _ Hk Hj) as Hz.
    destruct (line_ok a k n _ Hw Hn Hj) as [L1 L2].
    destruct (axismap_spec zero ai (line a k n j) 0) as [M1 M2]; [lia|lia|]. fold am in M1. split; [lia|].
    intros i Hi. rewrite Hel by (apply (inb_ins _ _ (zlen am)); [exact Hdsm|rewrite Hdel; exact Hj|lia]).
    apply Hg. lia.
Qed.

(* ---- compress ---- *)
Definition marked (ai : list Z) (i : Z) : bool := match znth ai i with Some 1 => true | _ => false end.

Lemma compress_loop_from {A} ai (a : arr A) k n : wf a -> znth (dims a) k = Some n -> zlen ai = n ->
  forall src idx, inb (dims a) idx -> src = skipn (Z.to_nat (pos (dims a) idx)) (elems a) ->
  compress_loop ai (dims a) k src idx =
  Ok (flat_map (fun q => match znth q k with
                         | Some i => if marked ai i then match elem a q with Some x => [x] | None => [] end else []
                         | None => [] end)
        (skipn (Z.to_nat (pos (dims a) idx)) (all_idx (dims a)))).
Proof.
  intros Hw Hn Hai. pose proof (znth_some_range _ _ _ Hn) as Hk.
  induction src as [|x src IH]; intros idx Hin Hsrc.
  - pose proof (pos_range _ _ Hin) as Hp. pose proof (wf_len _ Hw) as Hl.
    assert (E : zlen (skipn (Z.to_nat (pos (dims a) idx)) (elems a)) = 0) by (rewrite <- Hsrc; reflexivity).
    unfold zlen in *. rewrite skipn_length in E. lia.
  - pose proof (pos_range _ _ Hin) as Hp. pose proof (wf_len _ Hw) as Hl.
    destruct (elem_some a idx Hw Hin) as (y & Hy).
    assert (Hy' : nth_error (elems a) (Z.to_nat (pos (dims a) idx)) = Some y).
    { unfold elem, znth in Hy. replace (pos (dims a) idx <? 0) with false in Hy by lia. exact Hy. }
    rewrite (skipn_cons_nth _ _ _ Hy') in Hsrc. assert (Hxy : x = y) by congruence. assert (Hs2 : src = skipn (Datatypes.S (Z.to_nat (pos (dims a) idx))) (elems a)) by congruence. subst y. clear Hsrc.
    pose proof (znth_all_idx _ _ Hin) as Hz. unfold znth in Hz.
    replace (pos (dims a) idx <? 0) with false in Hz by lia.
    rewrite (skipn_cons_nth _ _ _ Hz). cbn [compress_loop flat_map].
    destruct (inb_split _ k n idx Hn Hin) as (i & Hi & Hik & _ & _).
    destruct (znth_in_range ai i) as (b & Hb); [lia|].
    unfold zat. rewrite Hik. cbn [obind]. rewrite Hb. cbn [obind]. rewrite Hy.
    assert (Erest : compress_loop ai (dims a) k (skipn (Datatypes.S (Z.to_nat (pos (dims a) idx))) (elems a)) (IncArrayIndex idx (dims a)) =
       Ok (flat_map (fun q => match znth q k with
                         | Some i => if marked ai i then match elem a q with Some x => [x] | None => [] end else []
                         | None => [] end)
        (skipn (Datatypes.S (Z.to_nat (pos (dims a) idx))) (all_idx (dims a))))).
    { destruct (Z.eq_dec (pos (dims a) idx + 1) (size (dims a))) as [Elast|Elast].
      - assert (Z0 : zlen (all_idx (dims a)) = size (dims a)) by (apply zlen_all_idx; apply wf_nonneg; exact Hw).
        rewrite !skipn_all2 by (unfold zlen in *; lia). reflexivity.
      - pose proof (inc_aux_spec _ idx Hin) as Hinc. unfold IncArrayIndex.
        destruct (inc_aux idx (dims a)) as [idx' c]. cbn [fst]. destruct Hinc as [Hin' Hc]. destruct c; [lia|].
        rewrite <- Hs2.
        rewrite (IH idx' Hin').
        + replace (Z.to_nat (pos (dims a) idx')) with (Datatypes.S (Z.to_nat (pos (dims a) idx))) by lia. reflexivity.
        + rewrite Hs2. f_equal. lia. }
    rewrite Hs2. rewrite Erest. cbn [obind]. f_equal.
    unfold marked. rewrite Hb. destruct b as [|p|p]; try reflexivity. destruct p; reflexivity.
Qed.

Lemma flat_map_marked {B} ai d (h : Z -> list B) : bools ai -> zlen ai = d ->
  flat_map (fun i => if marked ai i then h i else []) (zseq d) = flat_map h (axismap 0 ai).
Proof.
  intros Hb Hd. subst d.
  assert (E : forall q (h : Z -> list B), flat_map (fun i => if marked ai i then h (i + q) else []) (zseq (zlen ai)) = flat_map h (axismap q ai)).
  { clear h. induction Hb as [|b ai Hb HF IH]; intros q h; [reflexivity|].
    pose proof (zlen_nonneg ai) as Hz.
    rewrite zlen_cons, zseq_cons by lia. replace (1 + zlen ai - 1) with (zlen ai) by lia.
    cbn [flat_map axismap]. rewrite flat_map_app. f_equal.
    - assert (b = 0 \/ b = 1) as [->| ->] by lia; [reflexivity|]. unfold marked. cbn [znth].
      change (znth (1 :: ai) 0) with (Some 1). cbn [Z.ltb Z.compare Z.to_nat Pos.to_nat Pos.iter_op repeat flat_map].
      change (Pos.to_nat 1) with 1%nat. cbn [repeat flat_map]. rewrite app_nil_r. reflexivity.
    - rewrite <- IH. rewrite !flat_map_concat_map, map_map. f_equal. apply map_ext_in. intros i Hi. apply In_zseq in Hi.
      unfold marked. rewrite znth_cons_pos by lia. replace (i + 1 - 1) with i by lia.
      replace (i + 1 + q) with (i + (q + 1)) by lia. reflexivity. }
  rewrite <- E. rewrite !flat_map_concat_map. f_equal. apply map_ext. intros i. rewrite Z.add_0_r. reflexivity.
Qed.

Lemma map_znth_zseq (l : list Z) : map (fun i => match znth l i with Some m => m | None => 0 end) (zseq (zlen l)) = l.
Proof.
  apply znth_ext; [rewrite zlen_map, zlen_zseq; zln; lia|]. rewrite zlen_map, zlen_zseq. intros i Hi.
  rewrite znth_map, znth_zseq by lia. cbn [option_map]. destruct (znth_in_range l i) as (x & ->); [lia|reflexivity].
Qed.

(* the kept indexes in ravel order are those of the smaller array *)
Lemma flat_map_idx {B} ai (g : list Z -> list B) : bools ai -> forall ds k n, znth ds k = Some n -> zlen ai = n ->
  flat_map (fun q => match znth q k with Some i => if marked ai i then g q else [] | None => [] end) (all_idx ds) =
  flat_map (fun q => g (zupd q k (match znth (axismap 0 ai) (match znth q k with Some i => i | None => 0 end) with Some m => m | None => 0 end)))
           (all_idx (zupd ds k (zlen (axismap 0 ai)))).
Proof.
  intros Hb ds. revert g. induction ds as [|d r IH]; intros g k n Hn Hai.
  - pose proof (znth_some_range _ _ _ Hn). zln. lia.
  - pose proof (znth_some_range _ _ _ Hn) as Hk. rewrite zlen_cons in Hk.
    destruct (Z.eq_dec k 0) as [->|Hk0].
    + change (znth (d :: r) 0) with (Some d) in Hn. inversion Hn; subst d.
      set (am := axismap 0 ai). change (zupd (n :: r) 0 (zlen am)) with (zlen am :: r). cbn [all_idx].
      transitivity (flat_map (fun i => flat_map (fun t => g (i :: t)) (all_idx r)) am).
      * unfold am. rewrite <- (flat_map_marked ai n) by assumption.
        generalize (zseq n). intros zs. induction zs as [|z zs IHz]; [reflexivity|]. cbn [flat_map].
        rewrite flat_map_app, IHz. f_equal. rewrite !flat_map_concat_map, map_map.
        destruct (marked ai z) eqn:Em.
        -- f_equal. apply map_ext. intros t. change (znth (z :: t) 0) with (Some z). cbn. rewrite Em. reflexivity.
        -- erewrite (map_ext _ (fun _ => [])); [|intros t; change (znth (z :: t) 0) with (Some z); cbn; rewrite Em; reflexivity].
           clear. induction (all_idx r) as [|t ts IHt]; [reflexivity|]. exact IHt.
      * rewrite <- (map_znth_zseq am) at 1. generalize (zseq (zlen am)). intros zs.
        induction zs as [|z zs IHz]; [reflexivity|]. cbn [flat_map map]. rewrite flat_map_app, IHz. f_equal.
        rewrite !flat_map_concat_map, map_map. f_equal.
    + rewrite znth_cons_pos in Hn by lia.
      assert (E1 : zupd (d :: r) k (zlen (axismap 0 ai)) = d :: zupd r (k - 1) (zlen (axismap 0 ai))).
      { unfold zupd. replace (k <? 0) with false by lia. replace (k - 1 <? 0) with false by lia.
        replace (Z.to_nat k) with (Datatypes.S (Z.to_nat (k - 1))) by lia. reflexivity. }
      rewrite E1. cbn [all_idx]. generalize (zseq d). intros zs.
      induction zs as [|z zs IHz]; [reflexivity|]. cbn [flat_map]. rewrite !flat_map_app, IHz. f_equal.
      pose proof (IH (fun q => g (z :: q)) (k - 1) n Hn Hai) as H.
      rewrite !flat_map_concat_map, !map_map. rewrite !flat_map_concat_map in H.
      rewrite (map_ext (fun x => match znth (z :: x) k with Some i => if marked ai i then g (z :: x) else [] | None => [] end)
                       (fun q => match znth q (k - 1) with Some i => if marked ai i then g (z :: q) else [] | None => [] end))
        by (intros q; rewrite znth_cons_pos by lia; reflexivity).
      rewrite H. f_equal. apply map_ext. intros q. rewrite znth_cons_pos by lia. f_equal.
      unfold zupd. replace (k <? 0) with false by lia. replace (k - 1 <? 0) with false by lia.
      replace (Z.to_nat k) with (Datatypes.S (Z.to_nat (k - 1))) by lia. reflexivity.
Qed.

Lemma zsum_acc l a : fold_left Z.add l a = a + zsum l.
Proof. unfold zsum. revert a. induction l as [|x l IH]; intros a; cbn [fold_left]; [lia|]. rewrite IH, (IH (0 + x)). lia. Qed.
Lemma zsum_cons x l : zsum (x :: l) = x + zsum l.
Proof. unfold zsum at 1. cbn [fold_left]. rewrite zsum_acc. lia. Qed.
Lemma axismap_bools ai : bools ai -> forall q, zlen (axismap q ai) = zsum ai.
Proof.
  intros Hb. induction Hb as [|b ai Hb HF IH]; intros q; [reflexivity|]. cbn [axismap]. rewrite zlen_app, IH, zsum_cons.
  assert (b = 0 \/ b = 1) as [->| ->] by lia; reflexivity.
Qed.

Lemma axismap_nonneg ai : bools ai -> forall q, 0 <= q -> Forall (fun m => 0 <= m) (axismap q ai).
Proof.
  intros Hb. induction Hb as [|b ai Hb HF IH]; intros q Hq; cbn [axismap]; [constructor|].
  apply Forall_app. split; [|apply IH; lia]. apply Forall_forall. intros m Hm.
  assert (b = 0 \/ b = 1) as [->| ->] by lia; [destruct Hm|]. change (Z.to_nat 1) with 1%nat in Hm. cbn [Z.ltb Z.compare repeat] in Hm.
  destruct Hm as [<-|[]]. exact Hq.
Qed.

Lemma compress_ok {A} (zero : A) ai (a : arr A) k n :
  wf a -> znth (dims a) k = Some n -> zlen ai = n -> bools ai ->
  exists r, compress ai a k = Ok r /\
    rows_at (zupd (dims a) k (zsum ai)) k (all_idx (del k (dims a)))
      (map (fun j => replicated zero ai (line a k n j)) (all_idx (del k (dims a)))) r.
Proof.
  intros Hw Hn Hai Hb. pose proof (znth_some_range _ _ _ Hn) as Hk.
  pose proof (wf_nonneg _ Hw) as Hnn. pose proof (wf_dims_ne _ Hw) as Hne.
  set (am := axismap 0 ai). assert (Ham : zlen am = zsum ai) by (apply axismap_bools; exact Hb).
  pose proof (zlen_nonneg am) as Hal.
  set (ds := zupd (dims a) k (zsum ai)).
  assert (Hdsne : ds <> []) by (apply zupd_ne; exact Hne).
  assert (Hdsn : Forall (fun d => 0 <= d) ds) by (apply Forall_zupd; [exact Hnn|lia]).
  assert (Hdsm : znth ds k = Some (zsum ai)) by (apply znth_zupd_same; lia).
  assert (Hdel : del k ds = del k (dims a)) by (apply del_zupd; lia).
  set (src := fun q => zupd q k (match znth am (match znth q k with Some i => i | None => 0 end) with Some m => m | None => 0 end)).
  assert (Hins : forall i j, inb (del k (dims a)) j -> 0 <= i < zlen am ->
     exists m, znth am i = Some m /\ 0 <= m < n /\ src (ins k i j) = ins k m j /\
       znth (replicated zero ai (line a k n j)) i = elem a (ins k m j)).
  { intros i j Hj Hi. pose proof (zlen_inb_del _ _ _ Hk Hj) as Hz.
    destruct (znth_in_range am i) as (m & Hm); [lia|].
    destruct (line_ok a k n _ Hw Hn Hj) as [L1 L2].
    destruct (axismap_spec zero ai (line a k n j) 0) as [M1 M2]; [lia|lia|]. destruct (M2 i m Hm) as [Hrange Hrep].
    assert (Hm0 : 0 <= m).
    { pose proof (axismap_nonneg ai Hb 0 (Z.le_refl 0)) as HF. rewrite Forall_znth in HF. eapply HF. exact Hm. }
    exists m. split; [exact Hm|]. split; [lia|]. split.
    - unfold src. rewrite ins_insert, znth_insert by lia. rewrite Z.ltb_irrefl, Z.eqb_refl, Hm.
      rewrite <- ins_insert. apply zupd_ins. lia.
    - rewrite Hrep. replace (m =? -1) with false by lia. rewrite Z.sub_0_r. apply L2. lia. }
  assert (El : compress_loop ai (dims a) k (elems a) (zerosZ (length (dims a))) =
     Ok (flat_map (fun q => match elem a (src q) with Some x => [x] | None => [] end) (all_idx ds))).
  { unfold src, ds, am. rewrite <- Ham. unfold am. rewrite <- (flat_map_idx ai (fun q => match elem a q with Some x => [x] | None => [] end) Hb (dims a) k n Hn Hai).
    destruct (Z.eq_dec (size (dims a)) 0) as [E0|E0].
    - pose proof (wf_len _ Hw) as Hl. destruct (elems a) as [|x l]; [|zln; lia]. cbn [compress_loop].
      pose proof (zlen_all_idx _ Hnn) as Hz. destruct (all_idx (dims a)); [reflexivity|zln; lia].
    - pose proof (size_nonneg _ Hnn).
      assert (Hin : inb (dims a) (zerosZ (length (dims a)))) by (apply zeros_inb; apply size_pos_all; [exact Hnn|lia]).
      rewrite (compress_loop_from ai a k n Hw Hn Hai (elems a) _ Hin).
      + rewrite pos_zeros. cbn [Z.to_nat skipn]. reflexivity.
      + rewrite pos_zeros. reflexivity. }
  assert (Eg : exists g, forall q, inb ds q -> elem a (src q) = Some (g q)).
  { destruct (all_idx ds) as [|q0 qs] eqn:Eq.
    - destruct (elems a) as [|x0 l0] eqn:Ee.
      + exists (fun _ => zero). intros q Hq. apply In_all_idx in Hq. rewrite Eq in Hq. destruct Hq.
      + exists (fun _ => x0). intros q Hq. apply In_all_idx in Hq. rewrite Eq in Hq. destruct Hq.
    - exists (fun q => match elem a (src q) with Some x => x | None => zero end). intros q Hq.
      destruct (inb_split ds k _ q Hdsm Hq) as (i & Hi & Hik & Hj & Hidx). rewrite Hdel in Hj.
      destruct (Hins i _ Hj) as (m & Hm & Hmr & Hs & _); [lia|]. rewrite Hidx, Hs.
      destruct (elem_some a (ins k m (del k q)) Hw) as (x & ->); [apply (inb_ins _ _ n); assumption|reflexivity]. }
  destruct Eg as (g & Hg).
  assert (El2 : flat_map (fun q => match elem a (src q) with Some x => [x] | None => [] end) (all_idx ds) = map g (all_idx ds)).
  { assert (HF : Forall (inb ds) (all_idx ds)) by (apply Forall_forall; intros q Hq; apply In_all_idx; exact Hq).
    clear El. induction HF as [|q qs Hq HF IH]; [reflexivity|]. cbn [flat_map map]. rewrite (Hg q Hq), IH. reflexivity. }
  rewrite El2 in El. exists (mkArr ds (map g (all_idx ds))). split.
  - unfold compress. rewrite El. reflexivity.
  - rewrite <- Hdel. apply (rows_at_intro ds k (zsum ai)); [apply wf_build; assumption|reflexivity|exact Hdsm|].
    intros j Hj. assert (Hj' : inb (del k (dims a)) j) by (rewrite <- Hdel; exact Hj).
    destruct (line_ok a k n _ Hw Hn Hj') as [L1 L2].
    destruct (axismap_spec zero ai (line a k n j) 0) as [M1 M2]; [lia|lia|]. fold am in M1. split; [lia|].
    intros i Hi. destruct (Hins i j Hj') as (m & Hm & Hmr & Hs & Hrep); [lia|].
    assert (Hin : inb ds (ins k i j)) by (apply (inb_ins _ _ (zsum ai)); assumption).
    rewrite elem_build by exact Hin. rewrite Hrep, <- Hs. symmetry. apply Hg. exact Hin.
Qed.

(* ---- replicate: the cases ---- *)
Lemma forallb_bools ai : forallb (fun k => (0 <=? k) && (k <=? 1)) ai = true <-> bools ai.
Proof.
  rewrite forallb_forall. unfold bools. rewrite Forall_forall. split; intros H x Hx; specialize (H x Hx); lia.
Qed.

(* the part of Replicate after the arguments conform *)
Lemma replicate_core {A} (zero : A) ai (a : arr A) k n :
  wf a -> znth (dims a) k = Some n -> zlen ai = n ->
  exists r,
    (if forallb (fun k => (0 <=? k) && (k <=? 1)) ai then omap Arr (compress ai a k) else
     let am := axismap 0 ai in
     let shape := zupd (dims a) k (zlen am) in
     let* ic := NewIdxConverter (dims a) in
     omap Arr (fill shape (fun dst =>
       let* q := zat dst k in
       let* m := zat am q in
       if m =? -1 then Ok zero else At a (ic_index ic (zupd dst k m))))) = Ok (Arr r) /\
    rows_at (zupd (dims a) k (zsum (map Z.abs ai))) k (all_idx (del k (dims a)))
      (map (fun j => replicated zero ai (line a k n j)) (all_idx (del k (dims a)))) r.
Proof.
  intros Hw Hn Hai.
  assert (Habs : forall q l, zlen (axismap q l) = zsum (map Z.abs l)).
  { intros q l. revert q. induction l as [|c l IH]; intros q; [reflexivity|]. cbn [axismap map]. rewrite zlen_app, zsum_cons, IH.
    destruct (Z.ltb_spec 0 c); rewrite zlen_repeat; lia. }
  destruct (forallb _ ai) eqn:E.
  - apply forallb_bools in E. destruct (compress_ok zero ai a k n Hw Hn Hai E) as (r & E1 & HR).
    exists r. rewrite E1. split; [reflexivity|]. rewrite <- (Habs 0), (axismap_bools ai E). exact HR.
  - rewrite NewIdxConverter_ok by (apply wf_dims_ne; exact Hw). cbn [obind].
    destruct (replicate_fill zero ai a k n Hw Hn Hai) as (r & E1 & HR). exists r. cbv zeta.
    rewrite E1. split; [reflexivity|]. rewrite <- (Habs 0). exact HR.
Qed.

Lemma commonRepl_same {A} (cs : list Z) (a : arr A) axis k n :
  wf a -> k = norm_axis (zlen (dims a)) axis -> znth (dims a) k = Some n -> (n <> 1 \/ zlen cs <= 1) ->
  commonReplExp (vec cs) (Arr a) axis = Ok (cs, a, k).
Proof.
  intros Hw Hk Hn Hc. pose proof (znth_some_range _ _ _ Hn) as Hkr. unfold commonReplExp. cbn [dims vec elems asArr].
  change (zlen [zlen cs]) with 1. cbn [Z.eqb Pos.eqb negb].
  replace (zlen (dims a) =? 0) with false by lia. rewrite norm_axis_eq, <- Hk. replace (k <? 0) with false by lia.
  unfold zat. rewrite Hn. cbn [obind]. replace ((n =? 1) && (1 <? zlen cs)) with false by lia. reflexivity.
Qed.

Lemma commonRepl_extend {A} (cs : list Z) (a : arr A) axis k :
  wf a -> k = norm_axis (zlen (dims a)) axis -> znth (dims a) k = Some 1 -> 1 < zlen cs ->
  exists b, commonReplExp (vec cs) (Arr a) axis = Ok (cs, b, k) /\ wf b /\
    dims b = zupd (dims a) k (zlen cs) /\
    forall i j, inb (del k (dims a)) j -> 0 <= i < zlen cs -> elem b (ins k i j) = elem a (ins k 0 j).
Proof.
  intros Hw Hk Hn Hc. pose proof (znth_some_range _ _ _ Hn) as Hkr.
  pose proof (wf_nonneg _ Hw) as Hnn. pose proof (wf_dims_ne _ Hw) as Hne.
  set (ds := zupd (dims a) k (zlen cs)).
  assert (Hdsne : ds <> []) by (apply zupd_ne; exact Hne).
  assert (Hdsn : Forall (fun d => 0 <= d) ds) by (apply Forall_zupd; [exact Hnn|lia]).
  assert (Hdsm : znth ds k = Some (zlen cs)) by (apply znth_zupd_same; lia).
  assert (Hdel : del k ds = del k (dims a)) by (apply del_zupd; lia).
  destruct (fill_is_array ds (fun dst => At a (ic_index (strides (dims a)) (zupd dst k 0)))
             (fun dst => elem a (zupd dst k 0)) Hdsne Hdsn) as (b & E & Hwb & Hdb & Hel).
  - intros idx Hin. destruct (inb_split ds k _ idx Hdsm Hin) as (i & Hi & Hik & Hj & Hidx). rewrite Hdel in Hj.
    pose proof (zlen_inb_del _ _ _ Hkr Hj) as Hz.
    assert (Ez : zupd idx k 0 = ins k 0 (del k idx)) by (rewrite Hidx at 1; apply zupd_ins; lia). rewrite Ez.
    assert (Hin2 : inb (dims a) (ins k 0 (del k idx))) by (apply (inb_ins _ _ 1); [exact Hn|exact Hj|lia]).
    destruct (elem_some a _ Hw Hin2) as (x & Hx). exists x. split; [|exact Hx].
    rewrite ic_index_pos by (apply inb_length; exact Hin2). apply zat_ok. exact Hx.
  - exists b. split; [|split; [exact Hwb|split; [exact Hdb|]]].
    + unfold commonReplExp. cbn [dims vec elems asArr].
      change (zlen [zlen cs]) with 1. cbn [Z.eqb Pos.eqb negb].
      replace (zlen (dims a) =? 0) with false by lia. rewrite norm_axis_eq, <- Hk. replace (k <? 0) with false by lia.
      unfold zat. rewrite Hn. cbn [obind]. replace (1 <? zlen cs) with true by lia. cbn [Z.eqb Pos.eqb andb].
      rewrite NewIdxConverter_ok by exact Hne. cbn [obind]. fold ds. rewrite E. reflexivity.
    + intros i j Hj Hi. pose proof (zlen_inb_del _ _ _ Hkr Hj) as Hz.
      rewrite Hel by (apply (inb_ins _ _ (zlen cs)); [exact Hdsm|rewrite Hdel; exact Hj|exact Hi]).
      rewrite zupd_ins by lia. reflexivity.
Qed.

Lemma Replicate_ok {A} (zero : A) cs (a : arr A) axis k n :
  wf a -> k = norm_axis (zlen (dims a)) axis -> znth (dims a) k = Some n -> zlen cs = n ->
  exists r, Replicate zero (vec cs) (Arr a) axis = Ok (Arr r) /\
    rows_at (zupd (dims a) k (zsum (map Z.abs cs))) k (all_idx (del k (dims a)))
      (map (fun j => replicated zero cs (line a k n j)) (all_idx (del k (dims a)))) r.
Proof.
  intros Hw Hk Hn Hc. pose proof (znth_some_range _ _ _ Hn) as Hkr.
  destruct (replicate_core zero cs a k n Hw Hn Hc) as (r & E & HR). exists r. split; [|exact HR].
  unfold Replicate. rewrite (commonRepl_same cs a axis k n Hw Hk Hn ltac:(lia)). cbn [obind dims vec].
  change (zat [zlen cs] 0) with (Ok (zlen cs)). cbn [obind]. unfold zat at 1. rewrite Hn. cbn [obind].
  replace ((zlen cs =? 1) && (1 <? n)) with false by lia. cbn [obind].
  replace (zlen cs =? n) with true by lia. cbn [negb]. exact E.
Qed.

Lemma Replicate_single {A} (zero : A) c (a : arr A) axis k n :
  wf a -> k = norm_axis (zlen (dims a)) axis -> znth (dims a) k = Some n -> 1 <= n ->
  exists r, Replicate zero (vec [c]) (Arr a) axis = Ok (Arr r) /\
    rows_at (zupd (dims a) k (n * Z.abs c)) k (all_idx (del k (dims a)))
      (map (fun j => replicated zero (repeat c (Z.to_nat n)) (line a k n j)) (all_idx (del k (dims a)))) r.
Proof.
  intros Hw Hk Hn Hn1. pose proof (znth_some_range _ _ _ Hn) as Hkr.
  assert (Hsum : forall m, zsum (map Z.abs (repeat c m)) = Z.of_nat m * Z.abs c).
  { induction m as [|m IH]; [reflexivity|]. cbn [repeat map]. rewrite zsum_cons, IH. lia. }
  destruct (Z.eq_dec n 1) as [E1|E1].
  - subst n. destruct (Replicate_ok zero [c] a axis k 1 Hw Hk Hn eq_refl) as (r & E & HR). exists r. split; [exact E|].
    change (repeat c (Z.to_nat 1)) with [c]. replace (1 * Z.abs c) with (zsum (map Z.abs [c])); [exact HR|].
    cbn [map]. rewrite zsum_cons. change (zsum []) with 0. lia.
  - destruct (replicate_core zero (repeat c (Z.to_nat n)) a k n Hw Hn) as (r & E & HR); [rewrite zlen_repeat; lia|].
    exists r. split.
    + unfold Replicate. rewrite (commonRepl_same [c] a axis k n Hw Hk Hn ltac:(right; zln; lia)). cbn [obind dims vec].
      change (zat [zlen [c]] 0) with (Ok 1). cbn [obind]. unfold zat at 1. rewrite Hn. cbn [obind].
      replace (1 <? n) with true by lia. cbn [Z.eqb Pos.eqb andb]. change (zat [c] 0) with (Ok c). cbn [obind].
      rewrite Z.eqb_refl. cbn [negb]. exact E.
    + rewrite Hsum in HR. rewrite Z2Nat.id in HR by lia. exact HR.
Qed.

Lemma Replicate_extend {A} (zero : A) cs (a : arr A) axis k :
  wf a -> k = norm_axis (zlen (dims a)) axis -> znth (dims a) k = Some 1 -> 1 < zlen cs ->
  exists r, Replicate zero (vec cs) (Arr a) axis = Ok (Arr r) /\
    rows_at (zupd (dims a) k (zsum (map Z.abs cs))) k (all_idx (del k (dims a)))
      (map (fun j => replicated zero cs (concat (repeat (line a k 1 j) (length cs)))) (all_idx (del k (dims a)))) r.
Proof.
  intros Hw Hk Hn Hc. pose proof (znth_some_range _ _ _ Hn) as Hkr.
  destruct (commonRepl_extend cs a axis k Hw Hk Hn Hc) as (b & E & Hwb & Hdb & Hel).
  assert (Hbn : znth (dims b) k = Some (zlen cs)) by (rewrite Hdb; apply znth_zupd_same; lia).
  assert (Hdel : del k (dims b) = del k (dims a)) by (rewrite Hdb; apply del_zupd; lia).
  destruct (replicate_core zero cs b k (zlen cs) Hwb Hbn eq_refl) as (r & E1 & HR). exists r. split.
  - unfold Replicate. rewrite E. cbn [obind dims vec]. change (zat [zlen cs] 0) with (Ok (zlen cs)). cbn [obind].
    unfold zat at 1. rewrite Hbn. cbn [obind]. replace ((zlen cs =? 1) && (1 <? zlen cs)) with false by lia. cbn [obind].
    rewrite Z.eqb_refl. cbn [negb]. exact E1.
  - rewrite Hdel in HR. rewrite Hdb, zupd_zupd in HR.
    rewrite (map_ext_in (fun j => replicated zero cs (concat (repeat (line a k 1 j) (length cs))))
                        (fun j => replicated zero cs (line b k (zlen cs) j))); [exact HR|].
    intros j Hj. apply In_all_idx in Hj. f_equal.
    destruct (line_ok a k 1 j Hw Hn Hj) as [L1 L2].
    assert (Hjb : inb (del k (dims b)) j) by (rewrite Hdel; exact Hj).
    destruct (line_ok b k (zlen cs) j Hwb Hbn Hjb) as [B1 B2].
    destruct (line a k 1 j) as [|x [|y l]] eqn:El; [zln; lia| |zln; lia].
    assert (Ec : forall m, concat (repeat [x] m) = repeat x m).
    { induction m as [|m IH]; [reflexivity|]. cbn [repeat concat app]. rewrite IH. reflexivity. }
    rewrite Ec. apply znth_ext; [rewrite zlen_repeat; unfold zlen in *; lia|]. rewrite zlen_repeat. intros i Hi.
    rewrite znth_repeat by lia. rewrite B2 by (unfold zlen; lia). rewrite Hel by (try exact Hj; unfold zlen; lia).
    symmetry. rewrite <- L2 by lia. reflexivity.
Qed.

Lemma Replicate_length_error {A} (zero : A) cs (a : arr A) axis k n :
  wf a -> k = norm_axis (zlen (dims a)) axis -> znth (dims a) k = Some n ->
  zlen cs <> n -> n <> 1 -> (zlen cs <> 1 \/ n = 0) ->
  Replicate zero (vec cs) (Arr a) axis = Err.
Proof.
  intros Hw Hk Hn Hc Hn1 Hc1. pose proof (wf_nonneg _ Hw) as Hnn. rewrite Forall_znth in Hnn. pose proof (Hnn _ _ Hn) as Hn0. cbn beta in Hn0.
  unfold Replicate. rewrite (commonRepl_same cs a axis k n Hw Hk Hn ltac:(lia)). cbn [obind dims vec].
  change (zat [zlen cs] 0) with (Ok (zlen cs)). cbn [obind]. unfold zat at 1. rewrite Hn. cbn [obind].
  replace ((zlen cs =? 1) && (1 <? n)) with false by lia. cbn [obind].
  replace (zlen cs =? n) with false by lia. reflexivity.
Qed.

(* vectors *)
Lemma line_vec {A} (l : list A) : line (vec l) 0 (zlen l) [] = l.
Proof.
  destruct (line_ok (vec l) 0 (zlen l) []) as [L1 L2]; [apply wf_vec|reflexivity|constructor|].
  apply znth_ext; [exact L1|]. rewrite L1. intros i Hi. rewrite L2 by lia. unfold ins, elem. cbn. f_equal. lia.
Qed.
Lemma rows_at_vec {A} m (row : list A) r : rows_at [m] 0 [[]] [row] r -> r = vec row.
Proof.
  intros (Hw & Hd & HF). inversion HF as [|? ? ? ? [Hm Hel] _]; subst. change (znth [m] 0) with (Some m) in Hm.
  injection Hm as ->. apply arr_ext; [exact Hw|apply wf_vec|exact Hd|].
  intros idx Hin. rewrite Hd in Hin. inversion Hin as [|? i ? idx' Hi Hin']; subst. inversion Hin'; subst.
  specialize (Hel i Hi). change (ins 0 i []) with [i] in Hel. rewrite Hel, elem_vec. reflexivity.
Qed.
Lemma Replicate_vec {A} (zero : A) cs (l : list A) axis :
  axis = -1 \/ axis = 0 -> zlen cs = zlen l ->
  Replicate zero (vec cs) (Arr (vec l)) axis = Ok (Arr (vec (replicated zero cs l))).
Proof.
  intros Hax Hc. destruct (Replicate_ok zero cs (vec l) axis 0 (zlen l)) as (r & E & HR);
    [apply wf_vec|destruct Hax; subst; reflexivity|reflexivity|exact Hc|].
  rewrite E. f_equal. f_equal. cbn [dims vec] in HR. change (del 0 [zlen l]) with (@nil Z) in HR. cbn [all_idx map] in HR.
  rewrite line_vec in HR. eapply rows_at_vec. exact HR.
Qed.
Lemma replicated_bools {A} (z : A) cs l : bools cs -> zlen cs = zlen l ->
  replicated z cs l = map snd (filter (fun p => fst p =? 1) (combine cs l)).
Proof.
  intros Hb. revert l. induction Hb as [|c cs Hc HF IH]; intros l Hl; [reflexivity|].
  destruct l as [|x l]; [zln; lia|]. cbn [replicated combine filter fst]. rewrite !zlen_cons in Hl. rewrite IH by lia.
  assert (c = 0 \/ c = 1) as [->| ->] by lia; reflexivity.
Qed.

(* ---- expand ---- *)

Lemma enum_app {A} (l1 l2 : list A) :
  enum (l1 ++ l2) = enum l1 ++ map (fun p => (fst p + zlen l1, snd p)) (enum l2).
Proof.
  unfold enum. rewrite zlen_app. pose proof (zlen_nonneg l1). pose proof (zlen_nonneg l2).
  assert (E : zseq (zlen l1 + zlen l2) = zseq (zlen l1) ++ map (fun i => i + zlen l1) (zseq (zlen l2))).
  { unfold zseq. replace (Z.to_nat (zlen l1 + zlen l2)) with (Z.to_nat (zlen l1) + Z.to_nat (zlen l2))%nat by lia.
    rewrite seq_app, map_app. f_equal. rewrite map_map. rewrite <- (Nat.add_0_r (0 + Z.to_nat (zlen l1))).
    rewrite <- (Nat.add_comm 0). cbn [Nat.add].
    clear. generalize (Z.to_nat (zlen l2)) as m. intros m.
    assert (G : forall s, map Z.of_nat (seq (Z.to_nat (zlen l1) + s) m) = map (fun x => Z.of_nat x + zlen l1) (seq s m)).
    { induction m as [|m IH]; intros s; [reflexivity|]. cbn [seq map]. f_equal; [pose proof (zlen_nonneg l1); lia|].
      rewrite <- IH. f_equal. f_equal. lia. }
    specialize (G 0%nat). rewrite Nat.add_0_r in G. exact G. }
  rewrite E.
  assert (C : forall (z1 : list Z) (l1 : list A) z2 l2, length z1 = length l1 ->
     combine (z1 ++ z2) (l1 ++ l2) = combine z1 l1 ++ combine z2 l2).
  { clear. induction z1 as [|z z1 IH]; intros l1 z2 l2 Hl; destruct l1 as [|x l1]; try discriminate; [reflexivity|].
    cbn [app combine]. rewrite IH by (cbn [length] in Hl; lia). reflexivity. }
  rewrite C by (pose proof (zlen_zseq (zlen l1)); unfold zlen in *; lia). f_equal.
  generalize (zseq (zlen l2)) as zs. clear. intros zs. revert l2. induction zs as [|z zs IH]; intros l2; [reflexivity|].
  destruct l2 as [|x l2]; [reflexivity|]. cbn [map combine]. rewrite IH. reflexivity.
Qed.
Lemma enum_repeat {A} (x : A) k : 0 <= k -> enum (repeat x (Z.to_nat k)) = map (fun m => (m, x)) (zseq k).
Proof.
  intros Hk. unfold enum. rewrite zlen_repeat, Z2Nat.id by lia.
  assert (G : forall (zs : list Z) n, length zs = n -> combine zs (repeat x n) = map (fun m => (m, x)) zs).
  { induction zs as [|z zs IH]; intros n Hn; [subst; reflexivity|]. destruct n as [|n]; [discriminate|]. cbn [repeat combine map].
    rewrite IH by (cbn [length] in Hn; lia). reflexivity. }
  apply G. pose proof (zlen_zseq k). unfold zlen in *. lia.
Qed.
Lemma positives_cons c cs : positives (c :: cs) = (if 0 <? c then 1 else 0) + positives cs.
Proof. unfold positives. cbn [filter]. destruct (0 <? c); zln; lia. Qed.

Lemma expand_line_ok {A} (zero : A) (get : Z -> outcome A) (l : list A) :
  (forall i x, znth l i = Some x -> get i = Ok x) ->
  forall ai j d, 0 <= j -> j + positives ai <= zlen l ->
  expand_line zero get ai j d =
  Ok (map (fun p => (fst p + d, snd p)) (enum (expanded zero ai (skipn (Z.to_nat j) l)))).
Proof.
  intros Hget. induction ai as [|c ai IH]; intros j d Hj Hp; [reflexivity|].
  rewrite positives_cons in Hp. cbn [expand_line expanded].
  assert (P0 : 0 <= positives ai) by (unfold positives; apply zlen_nonneg).
  destruct (Z.ltb_spec 0 c) as [Hc|Hc].
  - destruct (znth_in_range l j) as (x & Hx); [lia|]. rewrite (Hget j x Hx). cbn [obind].
    assert (Hx' : nth_error l (Z.to_nat j) = Some x).
    { unfold znth in Hx. replace (j <? 0) with false in Hx by lia. exact Hx. }
    rewrite (skipn_cons_nth _ _ _ Hx'). rewrite IH by lia. cbn [obind]. f_equal.
    rewrite enum_app, map_app, enum_repeat by lia. rewrite !map_map. cbn [fst snd]. rewrite zlen_repeat, Z2Nat.id by lia.
    replace (Z.to_nat (j + 1)) with (Datatypes.S (Z.to_nat j)) by lia.
    f_equal; apply map_ext; intros q; f_equal; lia.
  - destruct (Z.eqb_spec c 0) as [E|E].
    + rewrite IH by lia. cbn [obind]. f_equal. rewrite enum_app, map_app. change (enum [zero]) with [(0, zero)]. cbn [map app].
      cbn [fst snd]. replace (0 + d) with d by lia. f_equal. rewrite map_map. cbn [fst snd]. change (zlen [zero]) with 1. apply map_ext. intros q. f_equal. lia.
    + rewrite IH by lia. cbn [obind]. f_equal. rewrite enum_app, map_app, enum_repeat by lia. rewrite !map_map. cbn [fst snd].
      rewrite zlen_repeat, Z2Nat.id by lia. f_equal; apply map_ext; intros q; f_equal; lia.
Qed.

Lemma expand_step_max s c : expand_step s c = s + Z.max 1 (Z.abs c).
Proof. unfold expand_step. destruct (Z.ltb_spec c 0); cbv zeta; [destruct (Z.ltb_spec 1 (- c))|destruct (Z.ltb_spec 1 c)]; lia. Qed.
Lemma expand_len_acc ai s : fold_left expand_step ai s = s + expand_len ai.
Proof.
  unfold expand_len. revert s. induction ai as [|c ai IH]; intros s; cbn [fold_left]; [lia|].
  rewrite IH, (IH (expand_step 0 c)), !expand_step_max. lia.
Qed.
Lemma expand_len_cons c ai : expand_len (c :: ai) = Z.max 1 (Z.abs c) + expand_len ai.
Proof. unfold expand_len at 1. cbn [fold_left]. rewrite expand_len_acc, expand_step_max. lia. Qed.
Lemma zlen_expanded {A} (z : A) cs : forall l, positives cs <= zlen l -> zlen (expanded z cs l) = expand_len cs.
Proof.
  induction cs as [|c cs IH]; intros l Hp; [reflexivity|]. rewrite positives_cons in Hp. rewrite expand_len_cons. cbn [expanded].
  assert (P0 : 0 <= positives cs) by (unfold positives; apply zlen_nonneg).
  destruct (Z.ltb_spec 0 c).
  - destruct l as [|x l]; [zln; lia|]. rewrite zlen_app, zlen_repeat, IH by (zln; lia). lia.
  - rewrite zlen_app, IH by lia. destruct (Z.eqb_spec c 0); [zln; lia|]. rewrite zlen_repeat. lia.
Qed.
Lemma expand_len_ge cs : zlen cs <= expand_len cs.
Proof. induction cs as [|c cs IH]; [reflexivity|]. rewrite expand_len_cons, zlen_cons. lia. Qed.

Lemma expand_core {A} (zero : A) cs (a : arr A) k n :
  wf a -> znth (dims a) k = Some n -> positives cs <= n -> cs <> [] ->
  let ds := zupd (dims a) k (expand_len cs) in
  exists r,
    (let sum := expand_len cs in
     let shape := zupd (dims a) k sum in
     let short := zupd shape k 1 in
     if Prod shape <? 0 then Panic else
     let* ic := NewIdxConverter (dims a) in
     let* dic := NewIdxConverter shape in
     let* sa := zat shape k in
     if sa =? 0 then Panic else
     let* l := fst (lines_loop (Z.to_nat (Z.quot (Prod shape) sa)) (zerosZ (length shape)) short setI dic k
       (fun idx => elift (expand_line zero (fun j => At a (ic_index ic (zupd idx k j))) cs 0 0))
       (repeat zero (Z.to_nat (Prod shape))) tt) in
     Ok (Arr (mkArr shape l))) = Ok (Arr r) /\
    rows_at ds k (all_idx (del k (dims a)))
      (map (fun j => expanded zero cs (line a k n j)) (all_idx (del k (dims a)))) r.
Proof.
  intros Hw Hn Hp Hcs ds. pose proof (znth_some_range _ _ _ Hn) as Hk.
  pose proof (wf_nonneg _ Hw) as Hnn. pose proof (wf_dims_ne _ Hw) as Hne.
  pose proof (expand_len_ge cs) as Hge.
  assert (Hpos : 0 < expand_len cs) by (destruct cs; [congruence|zln; lia]).
  cbv zeta. fold ds.
  assert (Hdsne : ds <> []) by (apply zupd_ne; exact Hne).
  assert (Hdsn : Forall (fun d => 0 <= d) ds) by (apply Forall_zupd; [exact Hnn|lia]).
  assert (Hdsm : znth ds k = Some (expand_len cs)) by (apply znth_zupd_same; lia).
  assert (Hdel : del k ds = del k (dims a)) by (apply del_zupd; lia).
  pose proof (size_nonneg _ Hdsn) as Hs.
  assert (Hkl : 0 <= k <= zlen (del k ds)) by (rewrite zlen_del by (unfold ds; rewrite zlen_zupd; lia); unfold ds; rewrite zlen_zupd; lia).
  assert (Hsz : size ds = expand_len cs * size (del k ds)).
  { rewrite <- (insert_del k _ ds Hdsm) at 1. apply size_insert. exact Hkl. }
  assert (Hshort : size (zupd ds k 1) = size (del k ds)).
  { assert (H1 : znth (zupd ds k 1) k = Some 1) by (apply znth_zupd_same; unfold ds; rewrite zlen_zupd; lia).
    rewrite <- (insert_del k _ _ H1) at 1. rewrite del_zupd by (unfold ds; rewrite zlen_zupd; lia). rewrite size_insert by exact Hkl. lia. }
  rewrite !Prod_size by exact Hdsne. replace (size ds <? 0) with false by lia.
  rewrite !NewIdxConverter_ok by assumption. cbn [obind]. unfold zat. rewrite Hdsm. cbn [obind].
  replace (expand_len cs =? 0) with false by lia.
  replace (Z.quot (size ds) (expand_len cs)) with (size (zupd ds k 1)).
  2:{ rewrite Hshort, Hsz. rewrite Z.mul_comm, Z.quot_mul by lia. reflexivity. }
  replace (length ds) with (length (zupd ds k 1)) by apply zlen_zupd_length.
  set (compute := fun idx => @elift unit _ (expand_line zero (fun j => At a (ic_index (strides (dims a)) (zupd idx k j))) cs 0 0)).
  assert (Hl1 : Forall (fun d => 0 <= d) (zupd ds k 1)) by (apply Forall_zupd; [exact Hdsn|lia]).
  assert (Hcomp : forall j t, inb (del k ds) j ->
     compute (ins k 0 j) t = emap enum (eret (expanded zero cs (line a k n j))) t).
  { intros j t Hj. rewrite Hdel in Hj. destruct (line_ok a k n j Hw Hn Hj) as [L1 L2].
    pose proof (zlen_inb_del _ _ _ Hk Hj) as Hz.
    unfold compute, elift, emap, ebind, eret. rewrite (expand_line_ok zero _ (line a k n j)).
    - cbn [Z.to_nat skipn]. f_equal. f_equal. rewrite <- map_id. apply map_ext. intros [q x]. cbn [fst snd]. f_equal. lia.
    - intros i x Hx. pose proof (znth_some_range _ _ _ Hx) as Hi. rewrite L2 in Hx by lia. rewrite zupd_ins by lia.
      assert (Hin : inb (dims a) (ins k i j)) by (apply (inb_ins _ _ n); [exact Hn|exact Hj|lia]).
      rewrite ic_index_pos by (apply inb_length; exact Hin). apply zat_ok. exact Hx.
    - lia.
    - lia. }
  assert (Hrow : forall j (t : unit) row t', inb (del k ds) j ->
     eret (expanded zero cs (line a k n j)) t = (Ok row, t') -> zlen row = expand_len cs).
  { intros j t row t' Hj H. inversion H. rewrite Hdel in Hj. destruct (line_ok a k n j Hw Hn Hj) as [L1 _].
    apply zlen_expanded. lia. }
  assert (Hrep : zlen (repeat zero (Z.to_nat (size ds))) = size ds) by (rewrite zlen_repeat; lia).
  pose proof (lines_rows setI ds k (expand_len cs) (zupd ds k 1) compute
    (fun j => eret (expanded zero cs (line a k n j))) enum (repeat zero (Z.to_nat (size ds))) tt
    setI_ok Hdsne Hdsn Hdsm Hl1 (all_idx_line _ _ _ Hdsm) Hcomp Hrow (fun row Hz => enum_good row _ Hz) Hrep) as HL.
  rewrite (mapE_ok_pure _ (fun j => expanded zero cs (line a k n j))) in HL by reflexivity.
  destruct HL as (res' & E & HR). exists (mkArr ds res'). rewrite E. cbn [fst obind]. split; [reflexivity|].
  rewrite Hdel in HR. exact HR.
Qed.

Lemma Expand_ok {A} (zero : A) cs (a : arr A) axis k n :
  wf a -> k = norm_axis (zlen (dims a)) axis -> znth (dims a) k = Some n -> (n <> 1 \/ zlen cs <= 1) ->
  positives cs <= n -> cs <> [] ->
  exists r, Expand zero (Arr (vec cs)) (Arr a) axis = Ok (Arr r) /\
    rows_at (zupd (dims a) k (expand_len cs)) k (all_idx (del k (dims a)))
      (map (fun j => expanded zero cs (line a k n j)) (all_idx (del k (dims a)))) r.
Proof.
  intros Hw Hk Hn Hc Hp Hcs. destruct (expand_core zero cs a k n Hw Hn Hp Hcs) as (r & E & HR).
  exists r. split; [|exact HR]. unfold Expand. rewrite (commonRepl_same cs a axis k n Hw Hk Hn Hc). cbn [obind]. exact E.
Qed.
Lemma Expand_vec {A} (zero : A) cs (l : list A) axis :
  axis = -1 \/ axis = 0 -> (zlen l <> 1 \/ zlen cs <= 1) -> positives cs <= zlen l -> cs <> [] ->
  Expand zero (Arr (vec cs)) (Arr (vec l)) axis = Ok (Arr (vec (expanded zero cs l))).
Proof.
  intros Hax Hc Hp Hcs. destruct (Expand_ok zero cs (vec l) axis 0 (zlen l)) as (r & E & HR);
    [apply wf_vec|destruct Hax; subst; reflexivity|reflexivity|exact Hc|exact Hp|exact Hcs|].
  rewrite E. f_equal. f_equal. cbn [dims vec] in HR. change (del 0 [zlen l]) with (@nil Z) in HR. cbn [all_idx map] in HR.
  rewrite line_vec in HR. eapply rows_at_vec. exact HR.
Qed.

(* compressing what expand produced gives the data back *)
Lemma expand_compress {A} (z : A) cs : bools cs -> forall l, positives cs = zlen l ->
  replicated z cs (expanded z cs l) = l.
Proof.
  intros Hb. induction Hb as [|c cs Hc HF IH]; intros l Hp.
  - destruct l; [reflexivity|]. change (positives []) with 0 in Hp. zln. lia.
  - rewrite positives_cons in Hp. assert (c = 0 \/ c = 1) as [->| ->] by lia.
    + cbn [expanded Z.ltb Z.compare Z.eqb app replicated]. change (copies z 0 z) with (@nil A). cbn [app]. apply IH. cbn [Z.ltb Z.compare] in Hp. lia.
    + cbn [Z.ltb Z.compare] in Hp. assert (P0 : 0 <= positives cs) by (unfold positives; apply zlen_nonneg).
      destruct l as [|x l]; [zln; lia|]. cbn [expanded Z.ltb Z.compare]. change (repeat x (Z.to_nat 1)) with [x]. cbn [app replicated].
      change (copies z 1 x) with [x]. cbn [app]. f_equal. apply IH. rewrite zlen_cons in Hp. lia.
Qed.

(* ---- tack reductions ---- *)
Lemma tack_loop_block {A} first inner (b r : list A) n : 0 <= n -> n + zlen b = inner -> b <> [] ->
  tack_loop first inner (b ++ r) n =
  (if first then (if n =? 0 then firstn 1 b else []) else skipn (length b - 1) b) ++ tack_loop first inner r 0.
Proof.
  revert n. induction b as [|x b IH]; intros n Hn Hl Hb; [congruence|]. rewrite zlen_cons in Hl.
  cbn [app tack_loop]. destruct b as [|y b].
  - change (zlen (@nil A)) with 0 in Hl. replace (n + 1 =? inner) with true by lia. cbn [app].
    destruct first.
    + destruct (n =? 0); reflexivity.
    + replace (n =? inner - 1) with true by lia. reflexivity.
  - pose proof (zlen_nonneg b). rewrite zlen_cons in Hl. replace (n + 1 =? inner) with false by lia.
    rewrite IH by (try discriminate; zln; lia).
    destruct first.
    + replace (n + 1 =? 0) with false by lia. cbn [app]. destruct (n =? 0); reflexivity.
    + replace (n =? inner - 1) with false by lia. cbn [length]. cbn [Nat.sub]. rewrite Nat.sub_0_r. reflexivity.
Qed.

Lemma zsum_sumZ l : zsum l = sumZ l.
Proof. induction l as [|x r IH]; [reflexivity|]. rewrite zsum_cons, IH. reflexivity. Qed.
Lemma expand_len_sumZ cs : expand_len cs = sumZ (map (fun c => Z.max 1 (Z.abs c)) cs).
Proof. induction cs as [|x r IH]; [reflexivity|]. rewrite expand_len_cons, IH. reflexivity. Qed.
