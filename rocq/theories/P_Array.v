(* P_Array.v -- proofs about the array core. *)
From Verif Require Import Base M_Array S_Array.

Lemma fold_mul_acc l a : fold_left Z.mul l a = a * size l.
Proof.
  revert a. induction l as [|d r IH]; intros a; cbn [fold_left size]; [lia|].
  rewrite IH. ring.
Qed.

Lemma Prod_size ds : ds <> [] -> Prod ds = size ds.
Proof.
  destruct ds as [|d r]; [congruence|]. intros _. unfold Prod. rewrite fold_mul_acc. reflexivity.
Qed.

Lemma size_nonneg ds : Forall (fun d => 0 <= d) ds -> 0 <= size ds.
Proof. intros H. induction H as [|d r Hd _ IH]; cbn [size]; [lia|]. apply Z.mul_nonneg_nonneg; lia. Qed.

Lemma inb_length ds idx : inb ds idx -> length ds = length idx.
Proof. apply Forall2_length. Qed.

Lemma inb_nonneg ds idx : inb ds idx -> Forall (fun d => 0 <= d) ds.
Proof.
  intros H. induction H as [|d i r is Hd _ IH]; constructor; [lia|assumption].
Qed.

Lemma pos_range ds idx : inb ds idx -> 0 <= pos ds idx < size ds.
Proof.
  intros H. induction H as [|d i r is Hd Hr IH]; cbn [pos size]; [lia|]. nia.
Qed.

Lemma strides_cons d ds :
  strides (d :: ds) = size ds :: strides ds.
Proof.
  revert d. induction ds as [|d1 r IH]; intros d; [reflexivity|].
  change (strides (d :: d1 :: r)) with
    (match strides (d1 :: r) with (s1 :: _) as ss => (s1 * d1) :: ss | [] => [] end).
  rewrite (IH d1). cbn [size]. rewrite (Z.mul_comm d1). reflexivity.
Qed.

Lemma strides_length ds : length (strides ds) = length ds.
Proof. induction ds as [|d r IH]; [reflexivity|]. rewrite strides_cons. cbn [length]. rewrite IH. reflexivity. Qed.

Lemma ic_index_pos ds idx :
  length ds = length idx -> ic_index (strides ds) idx = pos ds idx.
Proof.
  revert idx. induction ds as [|d r IH]; intros idx H; destruct idx as [|i is]; try discriminate; [reflexivity|].
  rewrite strides_cons. cbn [ic_index pos]. rewrite IH by (simpl in H; lia). ring.
Qed.

Lemma size_pos_all ds : Forall (fun d => 0 <= d) ds -> 0 < size ds -> Forall (fun d => 0 < d) ds.
Proof.
  intros H. induction H as [|d r Hd Hr IH]; intros Hs; [constructor|]; cbn [size] in Hs; pose proof (size_nonneg _ Hr); constructor; [nia|apply IH; nia].
Qed.

Lemma ic_indexes_spec ds n :
  Forall (fun d => 0 <= d) ds -> 0 <= n < size ds ->
  exists idx, ic_indexes (strides ds) n = Ok idx /\ inb ds idx /\ pos ds idx = n.
Proof.
  revert n. induction ds as [|d r IH]; intros n Hnn Hn; cbn [size] in Hn.
  - exists []. repeat split; [constructor|simpl; lia].
  - rewrite strides_cons. cbn [ic_indexes]. inversion Hnn as [|d' r' Hd Hr]; subst.
    pose proof (size_nonneg _ Hr) as Hsz.
    assert (Hs0 : 0 < size r) by nia.
    replace (size r =? 0) with false by lia.
    rewrite Z.quot_div_nonneg by lia.
    pose proof (Z.div_mod n (size r) ltac:(lia)) as Hdm.
    pose proof (Z.mod_pos_bound n (size r) Hs0) as Hmb.
    assert (Hq : 0 <= n / size r < d).
    { split; [apply Z.div_pos; lia|]. apply Z.div_lt_upper_bound; [lia|]. lia. }
    destruct (IH (n - n / size r * size r)) as (idx & E & Hin & Hpos); [assumption|lia|].
    exists (n / size r :: idx). rewrite E. split; [reflexivity|]. split.
    + constructor; [lia|exact Hin].
    + cbn [pos]. rewrite Hpos. lia.
Qed.

Lemma pos_inj ds i1 i2 : inb ds i1 -> inb ds i2 -> pos ds i1 = pos ds i2 -> i1 = i2.
Proof.
  intros H1. revert i2. induction H1 as [|d i r is Hd Hr IH]; intros i2 H2 E; inversion H2; subst; [reflexivity|].
  cbn [pos] in E. match goal with H : Forall2 _ r ?x |- _ => pose proof (pos_range r x H) as R2; rename H into Hx end.
  pose proof (pos_range r is Hr) as R1. assert (i = y) by nia. subst y. f_equal. apply IH; [assumption|]. lia.
Qed.

Lemma ic_indexes_index ds idx :
  inb ds idx -> ic_indexes (strides ds) (pos ds idx) = Ok idx.
Proof.
  intros H. destruct (ic_indexes_spec ds (pos ds idx)) as (j & E & Hj & Hp).
  - eapply inb_nonneg; eassumption.
  - apply pos_range; assumption.
  - rewrite E. f_equal. eapply pos_inj; eassumption.
Qed.

(* ---- enumeration of indexes ---- *)

Lemma In_all_idx ds idx : In idx (all_idx ds) <-> inb ds idx.
Proof.
  revert idx. induction ds as [|d r IH]; intros idx; cbn [all_idx].
  - split.
    + intros [<-|[]]. constructor.
    + intros H. inversion H. left. reflexivity.
  - rewrite in_flat_map. split.
    + intros (i & Hi & Hin). apply In_zseq in Hi. apply in_map_iff in Hin.
      destruct Hin as (is & <- & His). constructor; [lia|]. apply IH. exact His.
    + intros H. inversion H as [|d' i r' is Hi His]; subst. exists i. split; [apply In_zseq; lia|].
      apply in_map. apply IH. exact His.
Qed.

Lemma flat_map_length_const {A B} (f : A -> list B) l n :
  (forall x, length (f x) = n) -> length (flat_map f l) = (length l * n)%nat.
Proof.
  intros H. induction l as [|x r IH]; simpl; [reflexivity|]. rewrite app_length, H, IH. reflexivity.
Qed.

Lemma zlen_all_idx ds : Forall (fun d => 0 <= d) ds -> zlen (all_idx ds) = size ds.
Proof.
  intros H. induction H as [|d r Hd Hr IH]; cbn [all_idx size]; [reflexivity|].
  unfold zlen in *. rewrite (flat_map_length_const _ _ (length (all_idx r))).
  - pose proof (zlen_zseq d) as Hz. unfold zlen in Hz. nia.
  - intros x. apply map_length.
Qed.

Lemma znth_flat_map_const {A} (f : Z -> list A) n m i j :
  (forall x, zlen (f x) = m) -> 0 <= i < n -> 0 <= j < m ->
  znth (flat_map f (zseq n)) (i * m + j) = znth (f i) j.
Proof.
  intros Hm Hi Hj.
  assert (G : forall k, 0 <= k -> forall i, 0 <= i < k ->
     znth (flat_map f (zseq k)) (i * m + j) = znth (f i) j /\ zlen (flat_map f (zseq k)) = k * m).
  { clear i n Hi. intros k Hk. pattern k. apply Z_lt_induction; [|assumption].
    clear k Hk. intros k IH i Hi.
    assert (Hlast : zlen (flat_map f (zseq (k-1))) = (k-1) * m).
    { destruct (Z.eq_dec k 1) as [->|Hne]; [reflexivity|].
      destruct (IH (k-1)) with (i := 0) as [_ H]; [lia|lia|exact H]. }
    replace (zseq k) with (zseq (k - 1) ++ [k-1]) by (rewrite <- zseq_succ by lia; f_equal; lia).
    rewrite flat_map_app. simpl. rewrite app_nil_r. split.
    - destruct (Z.eq_dec i (k-1)) as [->|Hne].
      + rewrite znth_app_r by nia. f_equal. lia.
      + rewrite znth_app_l by nia. apply IH; lia.
    - rewrite zlen_app, Hm, Hlast. lia. }
  destruct (G n ltac:(lia) i Hi) as [H _]. exact H.
Qed.

Lemma znth_all_idx ds idx : inb ds idx -> znth (all_idx ds) (pos ds idx) = Some idx.
Proof.
  intros H. induction H as [|d i r is Hd Hr IH]; [reflexivity|].
  cbn [all_idx pos].
  rewrite (znth_flat_map_const _ _ (size r)).
  - rewrite znth_map, IH. reflexivity.
  - intros x. rewrite zlen_map. apply zlen_all_idx. eapply inb_nonneg; eassumption.
  - lia.
  - apply pos_range. exact Hr.
Qed.

(* ---- odometer ---- *)

Lemma inc_aux_spec ds idx : inb ds idx ->
  let (idx', c) := inc_aux idx ds in
  inb ds idx' /\
  (if c then pos ds idx = size ds - 1 /\ pos ds idx' = 0 /\ idx' = zerosZ (length ds)
   else pos ds idx' = pos ds idx + 1).
Proof.
  intros H. induction H as [|d i r is Hd Hr IH]; cbn [inc_aux].
  - split; [constructor|]. repeat split.
  - destruct (inc_aux is r) as [is' c]. destruct IH as [Hin Hc]. destruct c.
    + destruct Hc as (E1 & E2 & E3). destruct (i + 1 <? d) eqn:E.
      * split; [constructor; [lia|exact Hin]|]. cbn [pos]. rewrite E1, E2. lia.
      * split; [constructor; [lia|exact Hin]|]. cbn [pos size length]. rewrite E1, E2.
        assert (i = d - 1) by lia. subst i. split; [ring|]. split; [lia|]. unfold zerosZ. cbn [repeat].
        rewrite E3. reflexivity.
    + split; [constructor; [lia|exact Hin]|]. cbn [pos]. rewrite Hc. lia.
Qed.

Lemma zeros_inb ds : Forall (fun d => 0 < d) ds -> inb ds (zerosZ (length ds)).
Proof.
  intros H. induction H as [|d r Hd Hr IH]; [constructor|]. constructor; [lia|exact IH].
Qed.

Lemma pos_zeros ds : pos ds (zerosZ (length ds)) = 0.
Proof. induction ds as [|d r IH]; [reflexivity|]. cbn [length zerosZ repeat pos]. fold (zerosZ (length r)). rewrite IH. lia. Qed.

Lemma skipn_cons_nth {A} (l : list A) n x :
  nth_error l n = Some x -> skipn n l = x :: skipn (S n) l.
Proof.
  revert l. induction n as [|n IH]; intros l H; destruct l as [|y r]; try discriminate.
  - simpl in H. inversion H. reflexivity.
  - simpl in *. apply IH. exact H.
Qed.

Lemma odo_loop_from {A} ds (body : list Z -> outcome A) n idx :
  inb ds idx -> Z.of_nat n <= size ds - pos ds idx ->
  odo_loop n idx ds body =
  mapM body (firstn n (skipn (Z.to_nat (pos ds idx)) (all_idx ds))).
Proof.
  revert idx. induction n as [|n IH]; intros idx Hin Hn; [reflexivity|].
  pose proof (pos_range ds idx Hin) as Hr.
  pose proof (znth_all_idx ds idx Hin) as Hz. unfold znth in Hz.
  replace (pos ds idx <? 0) with false in Hz by lia.
  rewrite (skipn_cons_nth _ _ _ Hz). cbn [odo_loop firstn mapM].
  destruct (body idx) as [x| |]; cbn [obind]; try reflexivity.
  destruct n as [|n0].
  - reflexivity.
  - pose proof (inc_aux_spec ds idx Hin) as Hi. unfold IncArrayIndex.
    destruct (inc_aux idx ds) as [idx' c]. cbn [fst]. destruct Hi as [Hin' Hc].
    destruct c; [lia|].
    rewrite IH; [|exact Hin'|lia].
    replace (Z.to_nat (pos ds idx')) with (S (Z.to_nat (pos ds idx))) by lia.
    reflexivity.
Qed.

Theorem odo_loop_all {A} ds (body : list Z -> outcome A) :
  Forall (fun d => 0 <= d) ds ->
  odo_loop (Z.to_nat (size ds)) (zerosZ (length ds)) ds body = mapM body (all_idx ds).
Proof.
  intros Hnn. pose proof (size_nonneg _ Hnn) as Hs.
  pose proof (zlen_all_idx ds Hnn) as Hlen. unfold zlen in Hlen.
  destruct (Z.eq_dec (size ds) 0) as [E|E].
  - rewrite E. destruct (all_idx ds) as [|x r]; [reflexivity|]. cbn [length] in Hlen. lia.
  - assert (Hpos : Forall (fun d => 0 < d) ds) by (apply size_pos_all; [assumption|lia]).
    rewrite odo_loop_from; [|apply zeros_inb; assumption|rewrite pos_zeros; lia].
    rewrite pos_zeros. cbn [Z.to_nat skipn]. rewrite firstn_all2 by lia. reflexivity.
Qed.

Lemma fill_eq {A} ds (body : list Z -> outcome A) :
  ds <> [] -> Forall (fun d => 0 <= d) ds ->
  fill ds body = omap (mkArr ds) (mapM body (all_idx ds)).
Proof.
  intros Hne Hnn. unfold fill. rewrite Prod_size by assumption.
  pose proof (size_nonneg _ Hnn). replace (size ds <? 0) with false by lia.
  rewrite odo_loop_all by assumption. destruct (mapM body (all_idx ds)); reflexivity.
Qed.

Lemma wf_fill_elems {A} ds (l : list A) :
  ds <> [] -> Forall (fun d => 0 <= d) ds -> zlen l = size ds -> wf (mkArr ds l).
Proof. intros. repeat split; assumption. Qed.

(* If the body yields g idx at every index, fill yields the array of g. *)
Lemma fill_ok {A} ds (body : list Z -> outcome A) (g : list Z -> A) :
  ds <> [] -> Forall (fun d => 0 <= d) ds ->
  (forall idx, inb ds idx -> body idx = Ok (g idx)) ->
  fill ds body = Ok (mkArr ds (map g (all_idx ds))).
Proof.
  intros Hne Hnn Hb. rewrite fill_eq by assumption.
  rewrite (mapM_ok_map body g); [reflexivity|]. intros x Hx. apply Hb. apply In_all_idx. exact Hx.
Qed.

Lemma wf_build {A} ds (g : list Z -> A) :
  ds <> [] -> Forall (fun d => 0 <= d) ds -> wf (mkArr ds (map g (all_idx ds))).
Proof.
  intros. apply wf_fill_elems; try assumption. rewrite zlen_map. apply zlen_all_idx. assumption.
Qed.

Lemma elem_build {A} ds (g : list Z -> A) idx :
  inb ds idx -> elem (mkArr ds (map g (all_idx ds))) idx = Some (g idx).
Proof.
  intros H. unfold elem. cbn [dims elems]. rewrite znth_map, znth_all_idx by assumption. reflexivity.
Qed.

(* Body results that are given by an option-valued g which is Some everywhere. *)
Lemma fill_is_array {A} ds (body : list Z -> outcome A) (g : list Z -> option A) :
  ds <> [] -> Forall (fun d => 0 <= d) ds ->
  (forall idx, inb ds idx -> exists x, body idx = Ok x /\ g idx = Some x) ->
  exists a, fill ds body = Ok a /\ is_array ds g a.
Proof.
  intros Hne Hnn Hb. rewrite fill_eq by assumption.
  assert (Hall : forall l, Forall (inb ds) l -> exists r, mapM body l = Ok r /\ Forall2 (fun i x => g i = Some x) l r).
  { intros l Hl. induction Hl as [|i l Hi Hl IH]; [exists []; split; constructor|].
    destruct IH as (r & Hr & HF). destruct (Hb i Hi) as (x & Hx & Hg).
    exists (x :: r). simpl. rewrite Hx. simpl. rewrite Hr. split; [reflexivity|]. constructor; assumption. }
  destruct (Hall (all_idx ds)) as (r & Hr & HF).
  { apply Forall_forall. intros x Hx. apply In_all_idx. exact Hx. }
  rewrite Hr. exists (mkArr ds r). split; [reflexivity|].
  assert (Hlen : zlen r = size ds).
  { rewrite <- (Forall2_zlen _ _ _ HF). apply zlen_all_idx. assumption. }
  repeat split; try assumption.
  intros idx Hi. unfold elem. cbn [dims elems].
  destruct (znth_in_range r (pos ds idx)) as (x & Hx).
  { rewrite Hlen. apply pos_range. exact Hi. }
  rewrite Hx. symmetry. eapply (Forall2_znth _ _ _ HF); [|exact Hx]. apply znth_all_idx. exact Hi.
Qed.

(* Two well-formed arrays of the same shape with the same element at every
   index are equal. *)
Lemma arr_ext {A} (a b : arr A) :
  wf a -> wf b -> dims a = dims b ->
  (forall idx, inb (dims a) idx -> elem a idx = elem b idx) -> a = b.
Proof.
  intros (Hne & Hnn & Hla) (_ & _ & Hlb) Hd H. destruct a as [da la], b as [db lb].
  cbn [dims elems] in *. subst db. f_equal.
  apply znth_ext; [lia|]. intros i Hi.
  destruct (ic_indexes_spec da i Hnn) as (idx & _ & Hin & Hp); [lia|].
  specialize (H idx Hin). unfold elem in H. cbn [dims elems] in H. rewrite Hp in H. exact H.
Qed.

Lemma elem_some {A} (a : arr A) idx : wf a -> inb (dims a) idx -> exists x, elem a idx = Some x.
Proof.
  intros (_ & _ & Hl) Hin. unfold elem. apply znth_in_range. rewrite Hl. apply pos_range. exact Hin.
Qed.

Lemma At_elem {A} (a : arr A) idx x :
  inb (dims a) idx -> elem a idx = Some x -> At a (ic_index (strides (dims a)) idx) = Ok x.
Proof.
  intros Hin H. unfold At. rewrite ic_index_pos by (apply inb_length; assumption).
  apply zat_ok. exact H.
Qed.

(* ---- reshape ---- *)

Lemma reshape_loop_spec {A} (src : list A) n k :
  0 <= k < zlen src ->
  exists l, reshape_loop n k src = Ok l /\ zlen l = Z.of_nat n /\
    forall i, 0 <= i < Z.of_nat n -> znth l i = znth src ((k + i) mod zlen src).
Proof.
  revert k. induction n as [|n IH]; intros k Hk; cbn [reshape_loop].
  - exists []. split; [reflexivity|]. split; [reflexivity|]. intros i Hi. lia.
  - destruct (znth_in_range src k Hk) as (x & Hx).
    assert (Hz : zat src k = Ok x) by (apply zat_ok; exact Hx). rewrite Hz. cbn [obind].
    set (k' := if k + 1 =? zlen src then 0 else k + 1).
    assert (Hk' : 0 <= k' < zlen src) by (unfold k'; destruct (k + 1 =? zlen src) eqn:E; lia).
    destruct (IH k' Hk') as (l & El & Hlen & Hl). rewrite El. cbn [obind].
    exists (x :: l). split; [reflexivity|]. split; [rewrite zlen_cons; lia|].
    intros i Hi. destruct (Z.eq_dec i 0) as [->|Hi0].
    + rewrite znth_cons_0, Z.add_0_r, Z.mod_small by lia. symmetry. exact Hx.
    + rewrite znth_cons_pos by lia. rewrite Hl by lia. f_equal.
      unfold k'. destruct (k + 1 =? zlen src) eqn:E.
      * replace (k + i) with (0 + (i - 1) + 1 * zlen src) by lia. rewrite Z.mod_add by lia. reflexivity.
      * f_equal. lia.
Qed.

Lemma Reshape_spec {A} (a : arr A) shape :
  elems a <> [] -> shape <> [] -> Forall (fun d => 0 <= d) shape ->
  exists r, Reshape a shape = Ok r /\ wf r /\ dims r = shape /\
    forall k, 0 <= k < size shape -> znth (elems r) k = znth (elems a) (k mod zlen (elems a)).
Proof.
  intros Hne Hs Hnn. unfold Reshape. rewrite Prod_size by assumption.
  pose proof (size_nonneg _ Hnn). replace (size shape <? 0) with false by lia.
  assert (Hlen : 0 < zlen (elems a)).
  { destruct (elems a) as [|x r]; [congruence|]. rewrite zlen_cons. pose proof (zlen_nonneg r). lia. }
  destruct (reshape_loop_spec (elems a) (Z.to_nat (size shape)) 0) as (l & El & Hl & Hk); [lia|].
  rewrite El. cbn [obind]. exists (mkArr shape l). split; [reflexivity|].
  split; [apply wf_fill_elems; try assumption; lia|]. split; [reflexivity|].
  cbn [elems]. intros k Hkr. rewrite Hk by lia. reflexivity.
Qed.

Lemma Reshape_self {A} (a : arr A) (v : arr A) :
  wf a -> elems a <> [] -> elems v = elems a -> Reshape v (dims a) = Ok a.
Proof.
  intros Hwf Hne Hv. destruct Hwf as (Hd & Hnn & Hlen).
  destruct (Reshape_spec v (dims a)) as (r & Er & Hr & Hdr & Hk); [congruence|assumption|assumption|].
  rewrite Er. f_equal. destruct r as [dr lr], a as [da la]. cbn [dims elems] in *. subst dr. f_equal.
  destruct Hr as (_ & _ & Hlr). cbn [dims elems] in Hlr.
  apply znth_ext; [lia|]. intros i Hi. rewrite Hk by lia. rewrite Hv, Z.mod_small by lia. reflexivity.
Qed.

(* ---- coordinates ---- *)

Lemma inb_coord ds idx k d : inb ds idx -> znth ds k = Some d ->
  exists i, znth idx k = Some i /\ 0 <= i < d.
Proof.
  intros H Hk. pose proof (znth_some_range _ _ _ Hk) as Hr.
  rewrite (Forall2_zlen _ _ _ H) in Hr. destruct (znth_in_range _ _ Hr) as (i & Hi).
  exists i. split; [exact Hi|]. eapply (Forall2_znth _ _ _ H); eassumption.
Qed.

Lemma Forall2_from_znth {A B} (P : A -> B -> Prop) l1 l2 :
  zlen l1 = zlen l2 ->
  (forall i x y, znth l1 i = Some x -> znth l2 i = Some y -> P x y) -> Forall2 P l1 l2.
Proof.
  revert l2. induction l1 as [|x r IH]; intros l2 Hlen H.
  - destruct l2; [constructor|]. rewrite zlen_cons, zlen_nil in Hlen. pose proof (zlen_nonneg l2). lia.
  - destruct l2 as [|y r2].
    + rewrite zlen_cons, zlen_nil in Hlen. pose proof (zlen_nonneg r). lia.
    + rewrite !zlen_cons in Hlen. constructor.
      * apply (H 0); reflexivity.
      * apply IH; [lia|]. intros i a b Ha Hb. pose proof (znth_some_range _ _ _ Ha).
        apply (H (i + 1)); rewrite znth_cons_pos by lia; replace (i + 1 - 1) with i by lia; assumption.
Qed.

Lemma inb_znth ds idx :
  zlen ds = zlen idx ->
  (forall k d i, znth ds k = Some d -> znth idx k = Some i -> 0 <= i < d) -> inb ds idx.
Proof. intros. apply Forall2_from_znth; assumption. Qed.

Lemma inb_zlen ds idx : inb ds idx -> zlen ds = zlen idx.
Proof. apply Forall2_zlen. Qed.

Lemma inb_upd ds ds' idx k i d :
  inb ds idx -> zlen ds' = zlen ds ->
  (forall j, j <> k -> znth ds' j = znth ds j) ->
  znth ds' k = Some d -> 0 <= i < d ->
  inb ds' (zupd idx k i).
Proof.
  intros Hin Hl Ho Hk Hi. pose proof (inb_zlen _ _ Hin) as Hz.
  pose proof (znth_some_range _ _ _ Hk) as Hr.
  apply inb_znth; [rewrite zlen_zupd; lia|].
  intros j dj ij Hdj Hij. destruct (Z.eq_dec j k) as [->|Hne].
  - rewrite znth_zupd_same in Hij by lia. congruence.
  - rewrite znth_zupd_other in Hij by congruence. rewrite Ho in Hdj by assumption.
    eapply (Forall2_znth _ _ _ Hin); eassumption.
Qed.

Lemma inb_upd_same ds idx k i d :
  inb ds idx -> znth ds k = Some d -> 0 <= i < d -> inb ds (zupd idx k i).
Proof. intros. eapply inb_upd; try eassumption; [reflexivity|reflexivity]. Qed.

Lemma zupd_zupd {A} (l : list A) k x y : zupd (zupd l k x) k y = zupd l k y.
Proof.
  apply znth_ext; [rewrite !zlen_zupd; reflexivity|]. rewrite !zlen_zupd. intros i Hi.
  destruct (Z.eq_dec i k) as [->|Hne].
  - rewrite !znth_zupd_same by (rewrite ?zlen_zupd; lia). reflexivity.
  - rewrite !znth_zupd_other by congruence. reflexivity.
Qed.

Lemma zupd_id {A} (l : list A) k x : znth l k = Some x -> zupd l k x = l.
Proof.
  intros H. apply znth_ext; [apply zlen_zupd|]. rewrite zlen_zupd. intros i Hi.
  destruct (Z.eq_dec i k) as [->|Hne].
  - rewrite znth_zupd_same by lia. symmetry. exact H.
  - rewrite znth_zupd_other by congruence. reflexivity.
Qed.
