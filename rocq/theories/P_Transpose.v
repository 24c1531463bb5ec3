(* P_Transpose.v -- monadic and dyadic transpose. *)
From Verif Require Import Base M_Array S_Array S_Structural P_Array M_Structural P_Reverse.

Lemma zseq_pos ds : Forall (fun d => 0 <= d) ds -> zseq (size ds) = map (pos ds) (all_idx ds).
Proof.
  intros H. pose proof (size_nonneg _ H). apply znth_ext.
  - rewrite zlen_map, zlen_all_idx, zlen_zseq by assumption. lia.
  - rewrite zlen_zseq. intros i Hi. rewrite znth_zseq by lia. rewrite znth_map.
    destruct (ic_indexes_spec ds i H) as (idx & _ & Hin & Hp); [lia|].
    rewrite <- Hp. rewrite znth_all_idx by assumption. reflexivity.
Qed.

Lemma mapM_zseq_indexes {B} ds (body : list Z -> outcome B) :
  Forall (fun d => 0 <= d) ds ->
  mapM (fun i => let* s := ic_indexes (strides ds) i in body s) (zseq (size ds)) = mapM body (all_idx ds).
Proof.
  intros H. rewrite zseq_pos by assumption. rewrite mapM_map. apply mapM_ext.
  intros idx Hin. apply In_all_idx in Hin. rewrite ic_indexes_index by assumption. reflexivity.
Qed.

Lemma listmin_le m l : listmin m l <= m /\ Forall (fun v => listmin m l <= v) l.
Proof.
  revert m. induction l as [|v r IH]; intros m; cbn [listmin fold_left].
  - split; [reflexivity|constructor].
  - fold (listmin (if v <? m then v else m) r). destruct (IH (if v <? m then v else m)) as [H1 H2].
    destruct (v <? m) eqn:E; (split; [lia|]); constructor; try assumption; lia.
Qed.

Lemma listmin_in m l : listmin m l = m \/ In (listmin m l) l.
Proof.
  revert m. induction l as [|v r IH]; intros m; cbn [listmin fold_left]; [left; reflexivity|].
  fold (listmin (if v <? m then v else m) r). destruct (v <? m) eqn:E.
  - right. destruct (IH v) as [H|H]; [left; congruence|right; exact H].
  - destruct (IH m) as [H|H]; [left; exact H|right; right; exact H].
Qed.

Lemma listmax_ge m l : m <= listmax m l /\ Forall (fun v => v <= listmax m l) l.
Proof.
  revert m. induction l as [|v r IH]; intros m; cbn [listmax fold_left].
  - split; [reflexivity|constructor].
  - fold (listmax (if m <? v then v else m) r). destruct (IH (if m <? v then v else m)) as [H1 H2].
    destruct (m <? v) eqn:E; (split; [lia|]); constructor; try assumption; lia.
Qed.

Lemma listmax_in m l : listmax m l = m \/ In (listmax m l) l.
Proof.
  revert m. induction l as [|v r IH]; intros m; cbn [listmax fold_left]; [left; reflexivity|].
  fold (listmax (if m <? v then v else m) r). destruct (m <? v) eqn:E.
  - right. destruct (IH v) as [H|H]; [left; congruence|right; exact H].
  - destruct (IH m) as [H|H]; [left; exact H|right; right; exact H].
Qed.

Lemma znth_combine {A B} (l1 : list A) (l2 : list B) k x y :
  znth l1 k = Some x -> znth l2 k = Some y -> znth (combine l1 l2) k = Some (x, y).
Proof.
  unfold znth. destruct (k <? 0); [discriminate|]. generalize (Z.to_nat k). clear k. intros n.
  revert l1 l2. induction n as [|n IH]; intros l1 l2 H1 H2; destruct l1, l2; try discriminate; simpl in *.
  - congruence.
  - apply IH; assumption.
Qed.

Lemma znth_combine_inv {A B} (l1 : list A) (l2 : list B) k x y :
  znth (combine l1 l2) k = Some (x, y) -> znth l1 k = Some x /\ znth l2 k = Some y.
Proof.
  unfold znth. destruct (k <? 0); [discriminate|]. generalize (Z.to_nat k). clear k. intros n.
  revert l1 l2. induction n as [|n IH]; intros l1 l2 H; destruct l1, l2; try discriminate; simpl in *.
  - inversion H. auto.
  - apply IH; assumption.
Qed.

(* the shape of the transposed array *)
Lemma tshape_spec ints rs m j :
  zlen ints = zlen rs -> Forall (fun d => 0 <= d) rs -> 0 <= j < m -> In (j + 1) ints ->
  exists s, znth (tshape ints rs m) j = Some s /\
    (forall k d, znth ints k = Some (j + 1) -> znth rs k = Some d -> s <= d) /\
    (exists k, znth ints k = Some (j + 1) /\ znth rs k = Some s).
Proof.
  intros Hlen Hnn Hj Hin. unfold tshape. rewrite znth_map, znth_zseq by lia. cbn [option_map].
  set (sel := map snd (filter (fun p => fst p =? j + 1) (combine ints rs))).
  eexists. split; [reflexivity|].
  assert (Hsel : forall d, In d sel <-> exists k, znth ints k = Some (j + 1) /\ znth rs k = Some d).
  { intros d. unfold sel. rewrite in_map_iff. split.
    - intros ([v d'] & Hd & Hf). cbn in Hd. subst d'. apply filter_In in Hf. destruct Hf as [Hc Hv]. cbn in Hv.
      apply In_znth in Hc. destruct Hc as (k & Hk). apply znth_combine_inv in Hk. exists k.
      replace (j + 1) with v by lia. exact Hk.
    - intros (k & H1 & H2). exists (j + 1, d). split; [reflexivity|]. apply filter_In. split; [|cbn; lia].
      eapply znth_In. apply znth_combine; eassumption. }
  destruct (listmin_le (listmax 0 rs) sel) as [Hm1 Hm2]. rewrite Forall_forall in Hm2. split.
  - intros k d H1 H2. apply Hm2. apply Hsel. exists k. auto.
  - apply Hsel. destruct (listmin_in (listmax 0 rs) sel) as [H|H]; [|exact H].
    apply In_znth in Hin. destruct Hin as (k & Hk).
    assert (Hr : 0 <= k < zlen rs) by (rewrite <- Hlen; eapply znth_some_range; eassumption).
    destruct (znth_in_range _ _ Hr) as (d & Hd).
    assert (Hds : In d sel) by (apply Hsel; exists k; auto).
    destruct (listmax_ge 0 rs) as [_ Hge]. rewrite Forall_forall in Hge.
    specialize (Hge d (znth_In _ _ _ Hd)). specialize (Hm2 d Hds).
    replace (listmin (listmax 0 rs) sel) with d by lia. exact Hds.
Qed.

Lemma zlen_tshape ints rs m : zlen (tshape ints rs m) = Z.max 0 m.
Proof. unfold tshape. rewrite zlen_map. apply zlen_zseq. Qed.

(* coordinates of the source: k-th coordinate is I[L[k]] *)

Lemma transpose_general {A} origin (l : list Z) (a : arr A) (ints : list Z) m :
  wf a -> zlen l = zlen (dims a) ->
  ints = (if origin =? 0 then map (fun v => v + 1) l else l) ->
  (forall v, In v ints <-> 1 <= v <= m) ->
  exists r, transposeIndexes origin (Some (vec l)) (dims a) =
              (Ok (map (fun idx => pos (dims a) (pick ints idx)) (all_idx (dims r)), dims r), mkArr [zlen l] ints) /\
    transpose origin (Some (Arr (vec l))) (Arr a) = (Ok (Arr r), Some (Arr (mkArr [zlen l] ints))) /\
    wf r /\ zlen (dims r) = m /\ dims r = tshape ints (dims a) m /\
    forall idx, inb (dims r) idx -> inb (dims a) (pick ints idx) /\ elem r idx = elem a (pick ints idx).
Proof.
  intros Hwf Hlen Hints Hon.
  assert (Hli : zlen ints = zlen (dims a)).
  { rewrite Hints. destruct (origin =? 0); [rewrite zlen_map|]; exact Hlen. }
  assert (Hrank : 0 < zlen (dims a)).
  { destruct (dims a) eqn:E; [destruct Hwf; congruence|]. rewrite zlen_cons. pose proof (zlen_nonneg l0). lia. }
  assert (Hm : listmax (-1) ints = m /\ 1 <= m).
  { destruct (znth_in_range ints 0) as (v0 & Hv0); [lia|].
    apply znth_In in Hv0. pose proof (proj1 (Hon v0) Hv0) as Hb.
    destruct (listmax_ge (-1) ints) as [_ Hge]. rewrite Forall_forall in Hge.
    assert (Hmin : In m ints) by (apply Hon; lia). specialize (Hge m Hmin).
    destruct (listmax_in (-1) ints) as [H|H]; [lia|]. apply Hon in H. lia. }
  destruct Hm as [Hmax Hm1].
  set (shape := tshape ints (dims a) m).
  assert (Hzs : zlen shape = m) by (unfold shape; rewrite zlen_tshape; lia).
  assert (Hsne : shape <> []) by (intros E; rewrite E in Hzs; unfold zlen in Hzs; simpl in Hzs; lia).
  assert (Hsh : forall j, 0 <= j < m -> exists s, znth shape j = Some s /\
    (forall k d, znth ints k = Some (j + 1) -> znth (dims a) k = Some d -> s <= d) /\
    (exists k, znth ints k = Some (j + 1) /\ znth (dims a) k = Some s)).
  { intros j Hj. apply tshape_spec; try assumption; [apply wf_nonneg; assumption|]. apply Hon. lia. }
  assert (Hsnn : Forall (fun d => 0 <= d) shape).
  { apply Forall_znth. intros j s Hs. pose proof (znth_some_range _ _ _ Hs) as Hjr.
    destruct (Hsh j) as (s' & Hs' & _ & (k & _ & Hk)); [lia|]. rewrite Hs in Hs'. inversion Hs'; subst s'.
    pose proof (wf_nonneg a Hwf) as Hnn. rewrite Forall_znth in Hnn. eapply Hnn; eassumption. }
  assert (Hpick : forall idx, inb shape idx -> inb (dims a) (pick ints idx)).
  { intros idx Hin. apply inb_znth; [unfold pick; rewrite zlen_map; lia|].
    intros k d i Hd Hi. unfold pick in Hi. rewrite znth_map in Hi.
    destruct (znth ints k) as [v|] eqn:Hv; [|discriminate]. cbn in Hi.
    assert (Hvr : 1 <= v <= m) by (apply Hon; eapply znth_In; eassumption).
    destruct (Hsh (v - 1)) as (s & Hs & Hle & _); [lia|]. replace (v - 1 + 1) with v in Hle by lia.
    destruct (inb_coord _ _ _ _ Hin Hs) as (i' & Hi' & Hr). rewrite Hi' in Hi. inversion Hi; subst i'.
    specialize (Hle k d Hv Hd). lia. }
  assert (HT : transposeIndexes origin (Some (vec l)) (dims a) =
       (Ok (map (fun idx => pos (dims a) (pick ints idx)) (all_idx shape), shape), mkArr [zlen l] ints)).
  { unfold transposeIndexes, vec. cbn [dims elems].
    replace (zlen l =? zlen (dims a)) with true by lia. cbn [negb]. rewrite <- Hints. f_equal.
    replace (existsb (fun v => v <? 1) ints) with false.
    2:{ symmetry. apply not_true_iff_false. rewrite existsb_exists. intros (v & Hv & Hv1).
        apply Hon in Hv. lia. }
    rewrite Hmax.
    replace (forallb (fun i => existsb (Z.eqb (i + 1)) ints) (zseq m)) with true.
    2:{ symmetry. apply forallb_forall. intros i Hi. apply In_zseq in Hi. apply existsb_exists.
        exists (i + 1). split; [apply Hon; lia|]. apply Z.eqb_refl. }
    cbn [negb]. replace (m <? 0) with false by lia. fold shape.
    rewrite Prod_size by assumption. pose proof (size_nonneg _ Hsnn) as Hsz.
    replace (size shape <? 0) with false by lia.
    rewrite NewIdxConverter_ok by assumption. cbn [obind].
    rewrite NewIdxConverter_ok by (apply wf_dims_ne; assumption). cbn [obind].
    rewrite (mapM_zseq_indexes shape (fun s => let* ridx := mapM (fun n => zat s (n - 1)) ints in
                Ok (ic_index (strides (dims a)) ridx))) by assumption.
    rewrite (mapM_ok_map _ (fun idx => pos (dims a) (pick ints idx))); [reflexivity|].
    intros idx Hin. apply In_all_idx in Hin.
    rewrite (mapM_ok_map _ (fun n => match znth idx (n - 1) with Some i => i | None => 0 end)).
    - cbn [obind]. fold (pick ints idx). f_equal. apply ic_index_pos. apply inb_length. apply Hpick. exact Hin.
    - intros n Hn. apply Hon in Hn. unfold zat.
      destruct (znth_in_range idx (n - 1)) as (i & Hi); [rewrite <- (inb_zlen _ _ Hin); lia|].
      rewrite Hi. reflexivity. }
  destruct (fill_is_array shape (fun idx => At a (pos (dims a) (pick ints idx)))
              (fun idx => elem a (pick ints idx)) Hsne Hsnn) as (r & Er & Hwr & Hdr & Hel).
  { intros idx Hin. destruct (elem_some a _ Hwf (Hpick idx Hin)) as (x & Hx). exists x.
    split; [|exact Hx]. apply zat_ok. exact Hx. }
  rewrite fill_eq in Er by assumption.
  exists r. rewrite Hdr. split; [exact HT|]. split.
  - unfold transpose. cbn [asArr]. rewrite HT. cbn [obind fst snd].
    rewrite mapM_map. destruct (mapM (fun idx => At a (pos (dims a) (pick ints idx))) (all_idx shape)) as [v| |];
      cbn [omap] in Er; try discriminate. inversion Er; subst r. reflexivity.
  - split; [exact Hwr|]. split; [exact Hzs|]. split; [reflexivity|].
    intros idx Hin. split; [apply Hpick; exact Hin|]. apply Hel. exact Hin.
Qed.

(* monadic transpose *)
Lemma znth_map_zseq {B} (f : Z -> B) n i : 0 <= i < n -> znth (map f (zseq n)) i = Some (f i).
Proof. intros H. rewrite znth_map, znth_zseq by assumption. reflexivity. Qed.

Lemma transpose_monadic_as_dyadic {A} origin (a : arr A) :
  fst (transpose origin None (Arr a)) =
  fst (transpose origin (Some (Arr (vec (map (fun i => zlen (dims a) - i - 1 + origin) (zseq (zlen (dims a))))))) (Arr a)).
Proof.
  unfold transpose. cbn [asArr]. unfold transposeIndexes, vec. cbn [dims elems].
  rewrite zlen_map, zlen_zseq, Z.max_r by apply zlen_nonneg.
  destruct (negb (zlen (dims a) =? zlen (dims a))); reflexivity.
Qed.

Lemma transpose_monadic {A} origin (a : arr A) :
  (origin = 0 \/ origin = 1) -> wf a ->
  exists r, fst (transpose origin None (Arr a)) = Ok (Arr r) /\ wf r /\ dims r = rev (dims a) /\
    forall idx, inb (dims r) idx -> inb (dims a) (rev idx) /\ elem r idx = elem a (rev idx).
Proof.
  intros Ho Hwf. set (n := zlen (dims a)).
  assert (Hn : 0 <= n) by apply zlen_nonneg.
  set (l := map (fun i => n - i - 1 + origin) (zseq n)).
  set (ints := map (fun i => n - i) (zseq n)).
  assert (Hints : ints = if origin =? 0 then map (fun v => v + 1) l else l).
  { unfold ints, l. destruct (origin =? 0) eqn:E.
    - rewrite map_map. apply map_ext. intros i. lia.
    - apply map_ext. intros i. lia. }
  assert (Hl : zlen l = n) by (unfold l; rewrite zlen_map, zlen_zseq; lia).
  assert (Hzi : forall k, 0 <= k < n -> znth ints k = Some (n - k)).
  { intros k Hk. unfold ints. apply znth_map_zseq. exact Hk. }
  destruct (transpose_general origin l a ints n Hwf Hl Hints) as (r & _ & Er & Hwr & Hzr & Hdr & Hel).
  { intros v. unfold ints. rewrite in_map_iff. split.
    - intros (i & <- & Hi). apply In_zseq in Hi. lia.
    - intros Hv. exists (n - v). split; [lia|]. apply In_zseq. lia. }
  exists r. rewrite transpose_monadic_as_dyadic. fold n l. rewrite Er.
  split; [reflexivity|]. split; [exact Hwr|].
  assert (Hdims : dims r = rev (dims a)).
  { apply znth_ext; [rewrite zlen_rev; exact Hzr|]. intros j Hj. rewrite Hzr in Hj.
    rewrite znth_rev by (fold n; exact Hj). fold n. rewrite Hdr.
    destruct (tshape_spec ints (dims a) n j) as (s & Hs & _ & (k & Hk1 & Hk2)).
    - unfold ints. rewrite zlen_map, zlen_zseq. fold n. lia.
    - apply wf_nonneg; assumption.
    - exact Hj.
    - eapply znth_In with (i := n - 1 - j). rewrite Hzi by lia. f_equal. lia.
    - rewrite Hs. rewrite <- Hk2. f_equal. pose proof (znth_some_range _ _ _ Hk2) as Hkr. fold n in Hkr.
      rewrite Hzi in Hk1 by lia. inversion Hk1. lia. }
  split; [exact Hdims|]. intros idx Hin. destruct (Hel idx Hin) as [H1 H2].
  assert (Hp : pick ints idx = rev idx).
  { pose proof (inb_zlen _ _ Hin) as Hzl. apply znth_ext.
    - unfold pick. rewrite zlen_map, zlen_rev. unfold ints. rewrite zlen_map, zlen_zseq. lia.
    - unfold pick. rewrite zlen_map. unfold ints at 1. rewrite zlen_map, zlen_zseq. intros k Hk.
      rewrite znth_map, Hzi by lia. cbn [option_map].
      rewrite znth_rev by lia.
      destruct (znth_in_range idx (n - k - 1)) as (i & Hi); [lia|]. rewrite Hi.
      replace (zlen idx - 1 - k) with (n - k - 1) by lia. symmetry. exact Hi. }
  rewrite Hp in H1, H2. auto.
Qed.

Lemma transpose_twice {A} origin (a r : arr A) :
  (origin = 0 \/ origin = 1) -> wf a ->
  fst (transpose origin None (Arr a)) = Ok (Arr r) -> fst (transpose origin None (Arr r)) = Ok (Arr a).
Proof.
  intros Ho Hwf H. destruct (transpose_monadic origin a Ho Hwf) as (r' & Er & Hwr & Hdr & Hel).
  rewrite Er in H. inversion H; subst r'. clear H.
  destruct (transpose_monadic origin r Ho Hwr) as (r2 & Er2 & Hwr2 & Hdr2 & Hel2).
  rewrite Er2. do 2 f_equal. apply arr_ext; try assumption.
  - rewrite Hdr2, Hdr, rev_involutive. reflexivity.
  - intros idx Hin. destruct (Hel2 idx Hin) as [H1 H2]. rewrite H2.
    destruct (Hel (rev idx) H1) as [H3 H4]. rewrite H4, rev_involutive. reflexivity.
Qed.

(* rejected left arguments *)
Lemma transpose_rejects {A} origin (l : list Z) (a : arr A) ints :
  ints = (if origin =? 0 then map (fun v => v + 1) l else l) ->
  (zlen l <> zlen (dims a) \/ (exists v, In v ints /\ v < 1) \/
   (exists v w, In v ints /\ 1 <= w < v /\ ~ In w ints)) ->
  fst (transpose origin (Some (Arr (vec l))) (Arr a)) = Err.
Proof.
  intros Hints H. unfold transpose. cbn [asArr]. unfold transposeIndexes, vec. cbn [dims elems].
  destruct (zlen l =? zlen (dims a)) eqn:E; cbn [negb]; [|reflexivity].
  destruct H as [H|H]; [lia|]. rewrite <- Hints.
  destruct (existsb (fun v => v <? 1) ints) eqn:E1; [reflexivity|].
  destruct H as [(v & Hv & Hlt)|(v & w & Hv & Hw & Hnin)].
  - exfalso. apply not_true_iff_false in E1. apply E1. apply existsb_exists. exists v. split; [exact Hv|]. lia.
  - replace (forallb (fun i => existsb (Z.eqb (i + 1)) ints) (zseq (listmax (-1) ints))) with false; [reflexivity|].
    symmetry. apply not_true_iff_false. intros Hf. rewrite forallb_forall in Hf.
    destruct (listmax_ge (-1) ints) as [_ Hge]. rewrite Forall_forall in Hge. specialize (Hge v Hv).
    specialize (Hf (w - 1)). rewrite In_zseq in Hf. specialize (Hf ltac:(lia)).
    apply existsb_exists in Hf. destruct Hf as (u & Hu & Heq). apply Hnin.
    replace w with u by lia. exact Hu.
Qed.
