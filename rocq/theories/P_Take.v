(* P_Take.v -- take and drop. *)
From Verif Require Import Base M_Array S_Array S_Structural P_Array M_Structural P_Reverse P_Transpose.


(* source coordinates of a take with per-axis counts cs *)

Lemma zlen_shifted ds cs idx :
  zlen ds = zlen cs -> zlen ds = zlen idx -> zlen (shifted ds cs idx) = zlen ds.
Proof.
  revert cs idx. induction ds as [|d dr IH]; intros cs idx H1 H2.
  - reflexivity.
  - destruct cs as [|c cr], idx as [|i ir]; rewrite ?zlen_cons in *;
      try (unfold zlen in *; simpl in *; lia).
    cbn [shifted]. rewrite !zlen_cons. rewrite IH; lia.
Qed.

Lemma znth_shifted ds cs idx k d c i :
  znth ds k = Some d -> znth cs k = Some c -> znth idx k = Some i ->
  znth (shifted ds cs idx) k = Some (i + start d c).
Proof.
  revert cs idx k. induction ds as [|d0 dr IH]; intros cs idx k Hd Hc Hi.
  - apply znth_some_range in Hd. unfold zlen in Hd; simpl in Hd. lia.
  - destruct cs as [|c0 cr]; [apply znth_some_range in Hc; unfold zlen in Hc; simpl in Hc; lia|].
    destruct idx as [|i0 ir]; [apply znth_some_range in Hi; unfold zlen in Hi; simpl in Hi; lia|].
    pose proof (znth_some_range _ _ _ Hd) as Hr. cbn [shifted].
    destruct (Z.eq_dec k 0) as [->|Hk].
    + rewrite znth_cons_0 in *. congruence.
    + rewrite znth_cons_pos in * by lia. apply IH; assumption.
Qed.

Lemma zlen_addv a b : zlen a = zlen b -> zlen (addv a b) = zlen a.
Proof. intros H. unfold addv. rewrite zlen_map. unfold zlen in *. rewrite combine_length. lia. Qed.

Lemma znth_addv a b k x y : znth a k = Some x -> znth b k = Some y -> znth (addv a b) k = Some (x + y).
Proof. intros H1 H2. unfold addv. rewrite znth_map, (znth_combine _ _ _ _ _ H1 H2). reflexivity. Qed.

Lemma inbb_spec ds idx : zlen ds = zlen idx -> (inbb ds idx = true <-> inb ds idx).
Proof.
  intros Hlen. unfold inbb. rewrite forallb_forall. split.
  - intros H. apply inb_znth; [exact Hlen|]. intros k d i Hd Hi.
    specialize (H (d, i)). cbn [fst snd] in H.
    assert (Hin : In (d, i) (combine ds idx)) by (eapply znth_In; apply znth_combine; eassumption).
    specialize (H Hin). lia.
  - intros H [d i] Hin. apply In_znth in Hin. destruct Hin as (k & Hk). apply znth_combine_inv in Hk.
    destruct Hk as [Hd Hi]. pose proof (Forall2_znth _ _ _ H k d i Hd Hi) as Hb. cbn [fst snd] in *. lia.
Qed.

(* take_shape / take_off: one assignment per listed axis *)
Lemma take_shape_spec ints x sh :
  NoDup x -> zlen ints = zlen x -> Forall (fun k => 0 <= k < zlen sh) x ->
  zlen (take_shape sh ints x) = zlen sh /\
  (forall i k n, znth x i = Some k -> znth ints i = Some n -> znth (take_shape sh ints x) k = Some (Z.abs n)) /\
  (forall k, ~ In k x -> znth (take_shape sh ints x) k = znth sh k).
Proof.
  revert ints sh. induction x as [|k0 ks IH]; intros ints sh Hnd Hlen Hr.
  - assert (ints = []) by (destruct ints; [reflexivity|unfold zlen in Hlen; simpl in Hlen; lia]). subst ints.
    cbn [take_shape]. split; [reflexivity|]. split; [|reflexivity].
    intros i k n Hk. apply znth_some_range in Hk. unfold zlen in Hk; simpl in Hk; lia.
  - destruct ints as [|n0 ns]; [unfold zlen in Hlen; simpl in Hlen; lia|].
    rewrite !zlen_cons in Hlen. inversion Hnd as [|? ? Hni Hnd']; subst. inversion Hr as [|? ? Hk0 Hr']; subst.
    cbn [take_shape]. destruct (IH ns (zupd sh k0 (Z.abs n0)) Hnd' ltac:(lia)) as (Hl & Hs & Ho).
    { rewrite zlen_zupd. exact Hr'. }
    rewrite zlen_zupd in Hl. split; [exact Hl|]. split.
    + intros i k n Hk Hn. pose proof (znth_some_range _ _ _ Hk) as Hir.
      destruct (Z.eq_dec i 0) as [->|Hi0].
      * rewrite znth_cons_0 in Hk, Hn. inversion Hk; inversion Hn; subst k0 n0.
        rewrite Ho by assumption. apply znth_zupd_same. assumption.
      * rewrite znth_cons_pos in Hk, Hn by lia. eapply Hs; eassumption.
    + intros k Hk. rewrite Ho by (intros H; apply Hk; right; exact H).
      apply znth_zupd_other. intros E. apply Hk. left. exact E.
Qed.

Lemma take_off_spec rs ints x off :
  NoDup x -> zlen ints = zlen x -> zlen off = zlen rs -> Forall (fun k => 0 <= k < zlen rs) x ->
  (forall k, In k x -> znth off k = Some 0) ->
  zlen (take_off rs off ints x) = zlen rs /\
  (forall i k n d, znth x i = Some k -> znth ints i = Some n -> znth rs k = Some d ->
     znth (take_off rs off ints x) k = Some (start d n)) /\
  (forall k, ~ In k x -> znth (take_off rs off ints x) k = znth off k).
Proof.
  revert ints off. induction x as [|k0 ks IH]; intros ints off Hnd Hlen Hlo Hr Hz.
  - assert (ints = []) by (destruct ints; [reflexivity|unfold zlen in Hlen; simpl in Hlen; lia]). subst ints.
    cbn [take_off]. split; [exact Hlo|]. split; [|reflexivity].
    intros i k n d Hk. apply znth_some_range in Hk. unfold zlen in Hk; simpl in Hk; lia.
  - destruct ints as [|n0 ns]; [unfold zlen in Hlen; simpl in Hlen; lia|].
    rewrite !zlen_cons in Hlen. inversion Hnd as [|? ? Hni Hnd']; subst. inversion Hr as [|? ? Hk0 Hr']; subst.
    cbn [take_off].
    set (off' := if n0 <? 0 then zupd off k0 (match znth rs k0 with Some r => r + n0 | None => 0 end) else off).
    assert (Hlo' : zlen off' = zlen rs) by (unfold off'; destruct (n0 <? 0); rewrite ?zlen_zupd; exact Hlo).
    assert (Hoth : forall k, k <> k0 -> znth off' k = znth off k).
    { intros k Hk. unfold off'. destruct (n0 <? 0); [|reflexivity]. apply znth_zupd_other. congruence. }
    destruct (IH ns off' Hnd' ltac:(lia) Hlo' Hr') as (Hl & Hs & Ho).
    { intros k Hk. rewrite Hoth by (intros ->; contradiction). apply Hz. right. exact Hk. }
    split; [exact Hl|]. split.
    + intros i k n d Hk Hn Hd. pose proof (znth_some_range _ _ _ Hk) as Hir.
      destruct (Z.eq_dec i 0) as [->|Hi0].
      * rewrite znth_cons_0 in Hk, Hn. inversion Hk; inversion Hn; subst k0 n0.
        rewrite Ho by assumption. unfold off', start. destruct (n <? 0) eqn:E.
        -- rewrite Hd. apply znth_zupd_same. lia.
        -- apply Hz. left. reflexivity.
      * rewrite znth_cons_pos in Hk, Hn by lia. eapply Hs; eassumption.
    + intros k Hk. rewrite Ho by (intros H; apply Hk; right; exact H).
      apply Hoth. intros E. apply Hk. left. congruence.
Qed.

(* x lists every axis exactly once *)

Lemma axis_perm_onto rank x k : axis_perm rank x -> 0 <= k < rank -> exists i, znth x i = Some k.
Proof.
  intros (Hnd & Hl & Hr) Hk. apply In_znth.
  assert (Hincl : incl (zseq rank) x).
  { apply NoDup_length_incl; [exact Hnd| |].
    - pose proof (zlen_zseq rank). unfold zlen in *. lia.
    - intros v Hv. apply In_zseq. rewrite Forall_forall in Hr. apply Hr. exact Hv. }
  apply Hincl. apply In_zseq. exact Hk.
Qed.

Lemma axis_perm_zseq rank : 0 <= rank -> axis_perm rank (zseq rank).
Proof.
  intros H. split; [apply NoDup_zseq|]. split; [rewrite zlen_zseq; lia|].
  apply Forall_forall. intros k Hk. apply In_zseq. exact Hk.
Qed.

(* The counts cs, one per axis, assembled from the counts ints given for the
   axes x (in that order). *)
Definition assigns (x ints cs : list Z) : Prop :=
  zlen cs = zlen x /\ zlen ints = zlen x /\
  forall i k n, znth x i = Some k -> znth ints i = Some n -> znth cs k = Some n.

Lemma Take_ok {A} (z : A) ints (a : arr A) x cs :
  wf a -> axis_perm (zlen (dims a)) x -> assigns x ints cs ->
  exists r, Take z ints a (Some x) = Ok r /\ wf r /\ dims r = map Z.abs cs /\
    forall idx, inb (map Z.abs cs) idx ->
      let src := shifted (dims a) cs idx in
      (inb (dims a) src -> elem r idx = elem a src) /\
      (~ inb (dims a) src -> elem r idx = Some z).
Proof.
  intros Hwf Hp (Hlc & Hli & Has). destruct Hp as (Hnd & Hlx & Hrx) eqn:Ep. clear Ep.
  set (rs := dims a) in *. unfold Take. fold rs.
  replace (zlen ints =? zlen x) with true by lia. cbn [negb].
  replace (existsb (fun k => (k <? 0) || (zlen rs <=? k)) x) with false.
  2:{ symmetry. apply not_true_iff_false. rewrite existsb_exists. intros (k & Hk & Hb).
      rewrite Forall_forall in Hrx. specialize (Hrx k Hk). lia. }
  assert (Hrne : rs <> []) by (apply wf_dims_ne; assumption).
  rewrite NewIdxConverter_ok by assumption. cbn [obind].
  destruct (take_shape_spec ints x rs Hnd Hli Hrx) as (Hsl & Hss & _).
  destruct (take_off_spec rs ints x (zerosZ (length rs)) Hnd Hli) as (Hol & Hos & _).
  { unfold zerosZ. rewrite zlen_repeat. reflexivity. }
  { exact Hrx. }
  { intros k Hk. rewrite Forall_forall in Hrx. specialize (Hrx k Hk). unfold zerosZ.
    apply znth_repeat. unfold zlen in Hrx. lia. }
  set (off := take_off rs (zerosZ (length rs)) ints x) in *.
  assert (Hget : forall k, 0 <= k < zlen rs -> exists i n, znth x i = Some k /\ znth ints i = Some n /\ znth cs k = Some n).
  { intros k Hk. destruct (axis_perm_onto (zlen rs) x k Hp Hk) as (i & Hi).
    pose proof (znth_some_range _ _ _ Hi) as Hir. destruct (znth_in_range ints i) as (n & Hn); [lia|].
    exists i, n. split; [exact Hi|]. split; [exact Hn|]. eapply Has; eassumption. }
  assert (Hshape : take_shape rs ints x = map Z.abs cs).
  { apply znth_ext; [rewrite zlen_map; lia|]. intros k Hk. rewrite Hsl in Hk.
    destruct (Hget k Hk) as (i & n & Hi & Hn & Hc). rewrite (Hss i k n Hi Hn), znth_map, Hc. reflexivity. }
  rewrite Hshape.
  assert (Hne : map Z.abs cs <> []).
  { intros E. assert (H0 : zlen (map Z.abs cs) = 0) by (rewrite E; reflexivity). rewrite zlen_map in H0.
    destruct rs; [congruence|]. rewrite zlen_cons in Hlx. pose proof (zlen_nonneg rs). lia. }
  assert (Hnn : Forall (fun d => 0 <= d) (map Z.abs cs)).
  { apply Forall_forall. intros d Hd. apply in_map_iff in Hd. destruct Hd as (c & <- & _). lia. }
  assert (Hsrc : forall idx, inb (map Z.abs cs) idx -> addv idx off = shifted rs cs idx).
  { intros idx Hin. pose proof (inb_zlen _ _ Hin) as Hz. rewrite zlen_map in Hz.
    apply znth_ext; [rewrite zlen_addv, zlen_shifted by lia; lia|].
    rewrite zlen_addv by lia. intros k Hk.
    assert (Hkr : 0 <= k < zlen rs) by lia.
    destruct (Hget k Hkr) as (i & n & Hi & Hn & Hc).
    destruct (znth_in_range rs k Hkr) as (d & Hd).
    destruct (znth_in_range idx k) as (v & Hv); [lia|].
    rewrite (znth_addv _ _ _ v (start d n)); [|exact Hv|eapply Hos; eassumption].
    symmetry. apply znth_shifted; assumption. }
  assert (Hlsrc : forall idx, inb (map Z.abs cs) idx -> zlen rs = zlen (shifted rs cs idx)).
  { intros idx Hin. pose proof (inb_zlen _ _ Hin) as Hz. rewrite zlen_map in Hz. rewrite zlen_shifted; lia. }
  destruct (fill_is_array (map Z.abs cs)
     (fun idx => if inbb rs (addv idx off) then At a (ic_index (strides rs) (addv idx off)) else Ok z)
     (fun idx => if inbb rs (shifted rs cs idx) then elem a (shifted rs cs idx) else Some z) Hne Hnn)
     as (r & Er & Hwr & Hdr & Hel).
  { intros idx Hin. rewrite Hsrc by assumption. destruct (inbb rs (shifted rs cs idx)) eqn:Eb.
    - apply inbb_spec in Eb; [|apply Hlsrc; assumption]. destruct (elem_some a _ Hwf Eb) as (v & Hv).
      exists v. split; [|exact Hv]. unfold rs. apply At_elem; assumption.
    - exists z. auto. }
  exists r. split; [exact Er|]. split; [exact Hwr|]. split; [exact Hdr|].
  intros idx Hin. set (src := shifted rs cs idx). cbv zeta. rewrite Hel by assumption. fold src.
  assert (Hb : inbb rs src = true <-> inb rs src) by (apply inbb_spec; apply Hlsrc; assumption).
  split; intros Hs.
  - rewrite (proj2 Hb Hs). reflexivity.
  - destruct (inbb rs src); [exfalso; apply Hs; apply Hb; reflexivity|reflexivity].
Qed.

(* completing the axis list *)
Lemma axis_ok_spec x m :
  NoDup m ->
  match axis_ok m x with
  | Ok tail => NoDup x /\ incl x m /\ NoDup tail /\ (forall k, In k tail <-> In k m /\ ~ In k x)
               /\ tail = filter (fun k => negb (existsb (Z.eqb k) x)) m
  | Err => ~ (NoDup x /\ incl x m)
  | Panic => False
  end.
Proof.
  revert m. induction x as [|n r IH]; intros m Hm; cbn [axis_ok].
  - split; [constructor|]. split; [intros k []|]. split; [exact Hm|]. split.
    + intros k. simpl. tauto.
    + cbn [existsb negb]. clear. induction m as [|a l IH]; simpl; [reflexivity|]. f_equal. exact IH.
  - destruct (existsb (Z.eqb n) m) eqn:E.
    + apply existsb_exists in E. destruct E as (n' & Hn & En). assert (n' = n) by lia. subst n'.
      specialize (IH (filter (fun k => negb (k =? n)) m) (NoDup_filter _ Hm)).
      destruct (axis_ok (filter (fun k => negb (k =? n)) m) r) as [tail| |].
      * destruct IH as (H1 & H2 & H3 & H4 & H5). split.
        { constructor; [|exact H1]. intros Hin. apply H2 in Hin. apply filter_In in Hin. lia. }
        split.
        { intros k [<-|Hk]; [exact Hn|]. apply H2 in Hk. apply filter_In in Hk. tauto. }
        split; [exact H3|]. split.
        { intros k. rewrite H4, filter_In. simpl. split.
          - intros ((Hk & Hne) & Hnr). split; [exact Hk|]. intros [->|Hr]; [lia|contradiction].
          - intros (Hk & Hnr). split; [split; [exact Hk|]|tauto].
            destruct (k =? n) eqn:Ekn; [|reflexivity]. exfalso. apply Hnr. left. lia. }
        { rewrite H5. clear. induction m as [|a l IHl]; simpl; [reflexivity|].
          destruct (a =? n) eqn:Ea; cbn [negb orb]; [exact IHl|]. simpl.
          destruct (existsb (Z.eqb a) r); cbn [negb]; [exact IHl|]. f_equal. exact IHl. }
      * intros (Hnd & Hi). apply IH. inversion Hnd as [|? ? Hni Hnd']; subst. split; [exact Hnd'|].
        intros k Hk. apply filter_In. split; [apply Hi; right; exact Hk|].
        destruct (k =? n) eqn:Ek; [|reflexivity]. exfalso. apply Hni. replace n with k by lia. exact Hk.
      * exact IH.
    + intros (_ & Hi). apply not_true_iff_false in E. apply E. apply existsb_exists.
      exists n. split; [apply Hi; left; reflexivity|]. lia.
Qed.


Lemma complete_axis_ok rank x :
  0 <= rank -> NoDup x -> Forall (fun k => 0 <= k < rank) x ->
  complete_axis rank x = Ok (x ++ missing_axes rank x) /\ axis_perm rank (x ++ missing_axes rank x).
Proof.
  intros H0r Hnd Hr. unfold complete_axis.
  assert (Hincl : incl x (zseq rank)).
  { intros k Hk. apply In_zseq. rewrite Forall_forall in Hr. apply Hr. exact Hk. }
  pose proof (NoDup_incl_length Hnd Hincl) as Hlen.
  pose proof (zlen_zseq rank) as Hzs. unfold zlen in Hzs.
  assert (Hbound : zlen x <= rank \/ x = []).
  { destruct x as [|k r]; [right; reflexivity|]. left. inversion Hr; subst. unfold zlen. lia. }
  pose proof (axis_ok_spec x (zseq rank) (NoDup_zseq rank)) as Hs.
  destruct (axis_ok (zseq rank) x) as [tail| |]; [|exfalso; apply Hs; auto|contradiction].
  destruct Hs as (_ & _ & H3 & H4 & H5).
  destruct (rank <? zlen x) eqn:E.
  { destruct Hbound as [Hb|Hb]; [lia|]. subst x. unfold zlen in E; simpl in E. lia. }
  cbn [obind]. unfold missing_axes. rewrite <- H5. split; [reflexivity|].
  assert (Hnd2 : NoDup (x ++ tail)).
  { clear - Hnd H3 H4. revert H4. generalize (zseq rank). intros m H4.
    assert (Hd : forall k, In k x -> In k tail -> False) by (intros k H1 H2; apply H4 in H2; tauto).
    clear H4. induction Hnd as [|a l Ha Hl IH]; [exact H3|]. simpl. constructor.
    - rewrite in_app_iff. intros [H|H]; [contradiction|]. eapply Hd; [left; reflexivity|exact H].
    - apply IH. intros k H1 H2. eapply Hd; [right; exact H1|exact H2]. }
  split; [exact Hnd2|].
  assert (Hsub : forall k, In k (x ++ tail) <-> In k (zseq rank)).
  { intros k. rewrite in_app_iff. split.
    - intros [H|H]; [apply Hincl; exact H|apply H4 in H; tauto].
    - intros H. destruct (in_dec Z.eq_dec k x) as [Hx|Hx]; [left; exact Hx|right; apply H4; auto]. }
  split.
  - assert (H6 : (length (x ++ tail) <= length (zseq rank))%nat)
      by (apply NoDup_incl_length; [exact Hnd2|intros k; apply Hsub]).
    assert (H7 : (length (zseq rank) <= length (x ++ tail))%nat)
      by (apply NoDup_incl_length; [apply NoDup_zseq|intros k; apply Hsub]).
    unfold zlen. pose proof (zlen_nonneg x). lia.
  - apply Forall_forall. intros k Hk. apply Hsub in Hk. apply In_zseq in Hk. exact Hk.
Qed.

(* ---- takedrop ---- *)

(* cs gives for every axis k the count written for it: the axes are listed in
   the order x (explicit axes first, then the missing ones); axes beyond the
   length of l get the default. *)

Definition dflt (istake : bool) (rs : list Z) (k : Z) : Z :=
  if istake then match znth rs k with Some d => d | None => 0 end else 0.

Lemma skipn_zlen {A} (l : list A) n : zlen (skipn n l) = Z.max 0 (zlen l - Z.of_nat n).
Proof. unfold zlen. rewrite skipn_length. lia. Qed.

Definition padded (istake : bool) (rs x l : list Z) : list Z :=
  l ++ map (dflt istake rs) (skipn (length l) x).

Lemma zlen_padded istake rs x l : zlen l <= zlen x -> zlen (padded istake rs x l) = zlen x.
Proof.
  intros H. unfold padded. rewrite zlen_app, zlen_map, skipn_zlen. unfold zlen in *. lia.
Qed.

Lemma znth_padded istake rs x l i k :
  zlen l <= zlen x -> znth x i = Some k ->
  znth (padded istake rs x l) i = Some (match znth l i with Some n => n | None => dflt istake rs k end).
Proof.
  intros Hl Hk. pose proof (znth_some_range _ _ _ Hk) as Hr. unfold padded.
  destruct (znth l i) as [n|] eqn:E.
  - rewrite znth_app_l; [exact E|]. apply znth_some_range in E. lia.
  - apply znth_none in E. assert (Hle : zlen l <= i) by lia.
    rewrite znth_app_r by exact Hle. rewrite znth_map, znth_skipn by lia.
    replace (i - zlen l + Z.of_nat (length l)) with i by (unfold zlen; lia). rewrite Hk. reflexivity.
Qed.

Definition final_counts (istake : bool) (rs x n : list Z) : list Z :=
  if istake then n else
  map (fun p => drop_to_take (fst p) (match znth rs (snd p) with Some d => d | None => 0 end)) (combine n x).

Lemma takedrop_unfold {A} (z iz : A) istake l (a : arr A) x0 :
  l <> [] -> zlen l <= zlen (dims a) ->
  NoDup x0 -> Forall (fun k => 0 <= k < zlen (dims a)) x0 ->
  let x := x0 ++ missing_axes (zlen (dims a)) x0 in
  let n := padded istake (dims a) x l in
  let n' := final_counts istake (dims a) x n in
  forall xo, (xo = Some x0 \/ (xo = None /\ x0 = [])) ->
  takedrop z iz istake (Arr (vec l)) (Arr a) xo =
    (omap Arr (Take z n' a (Some x)),
     if zlen l <? zlen (dims a) then Arr (mkArr [zlen (dims a)] l) else Arr (mkArr [zlen l] n')).
Proof.
  intros Hl Hlen Hnd Hr x n n' xo Hxo.
  assert (Hx0 : match xo with Some x => x | None => [] end = x0) by (destruct Hxo as [->|[-> ->]]; reflexivity).
  unfold takedrop, vec. cbn [dims elems asArr].
  change (1 <? zlen [zlen l]) with false. cbn iota. rewrite Hx0.
  destruct (complete_axis_ok (zlen (dims a)) x0 (zlen_nonneg _) Hnd Hr) as [Hc Hp].
  rewrite Hc. fold x in Hp |- *.
  destruct Hp as (_ & Hlx & _).
  replace (zlen (dims a) <? zlen l) with false by lia.
  assert (Hn : (if zlen l <? zlen (dims a)
                then l ++ map (fun k => if istake then match znth (dims a) k with Some d => d | None => 0 end else 0) (skipn (length l) x)
                else l) = n).
  { unfold n, padded. destruct (zlen l <? zlen (dims a)) eqn:E; [reflexivity|].
    rewrite skipn_all2 by (unfold zlen in *; lia). rewrite app_nil_r. reflexivity. }
  rewrite Hn. fold (final_counts istake (dims a) x n). fold n'.
  f_equal. destruct (zlen l <? zlen (dims a)) eqn:E; [|reflexivity].
  assert (Hzn : zlen n = zlen (dims a)) by (unfold n; rewrite zlen_padded by lia; lia).
  rewrite Hzn. reflexivity.
Qed.

Lemma assigns_padded istake rs x l cs :
  zlen l <= zlen x -> counts_for x l (dflt istake rs) cs ->
  assigns x (padded istake rs x l) cs.
Proof.
  intros Hl (Hc & H). split; [exact Hc|]. split; [apply zlen_padded; exact Hl|].
  intros i k n Hk Hn. rewrite (znth_padded istake rs x l i k) in Hn by assumption.
  rewrite (H i k Hk). exact Hn.
Qed.

Lemma take_ok {A} (z iz : A) l (a : arr A) x0 xo cs :
  wf a -> l <> [] -> zlen l <= zlen (dims a) ->
  NoDup x0 -> Forall (fun k => 0 <= k < zlen (dims a)) x0 ->
  (xo = Some x0 \/ (xo = None /\ x0 = [])) ->
  counts_for (x0 ++ missing_axes (zlen (dims a)) x0) l (dflt true (dims a)) cs ->
  exists r, fst (take z iz (Arr (vec l)) (Arr a) xo) = Ok (Arr r) /\ wf r /\ dims r = map Z.abs cs /\
    forall idx, inb (map Z.abs cs) idx ->
      let src := shifted (dims a) cs idx in
      (inb (dims a) src -> elem r idx = elem a src) /\
      (~ inb (dims a) src -> elem r idx = Some z).
Proof.
  intros Hwf Hl Hlen Hnd Hr Hxo Hcs. unfold take.
  rewrite (takedrop_unfold z iz true l a x0 Hl Hlen Hnd Hr xo Hxo). cbn [fst final_counts].
  destruct (complete_axis_ok (zlen (dims a)) x0 (zlen_nonneg _) Hnd Hr) as [_ Hp].
  set (x := x0 ++ missing_axes (zlen (dims a)) x0) in *.
  assert (Hzx : zlen x = zlen (dims a)) by (destruct Hp as (_ & H & _); exact H).
  destruct (Take_ok z (padded true (dims a) x l) a x cs Hwf Hp) as (r & Er & H).
  { apply assigns_padded; [lia|exact Hcs]. }
  exists r. rewrite Er. split; [reflexivity|exact H].
Qed.

(* source coordinates of a drop: skip c cells when c is positive *)
(* lengths after a drop *)

Fixpoint zip2 (f : Z -> Z -> Z) (l1 l2 : list Z) : list Z :=
  match l1, l2 with
  | x :: r1, y :: r2 => f x y :: zip2 f r1 r2
  | _, _ => []
  end.

Lemma zlen_zip2 f l1 l2 : zlen l1 = zlen l2 -> zlen (zip2 f l1 l2) = zlen l1.
Proof.
  revert l2. induction l1 as [|x r IH]; intros l2 H; destruct l2 as [|y r2]; try reflexivity;
    rewrite ?zlen_cons in *; try (unfold zlen in *; simpl in *; lia).
  cbn [zip2]. rewrite zlen_cons, IH; lia.
Qed.

Lemma znth_zip2 f l1 l2 k x y : znth l1 k = Some x -> znth l2 k = Some y -> znth (zip2 f l1 l2) k = Some (f x y).
Proof.
  revert l2 k. induction l1 as [|x0 r IH]; intros l2 k H1 H2.
  - apply znth_some_range in H1. unfold zlen in H1; simpl in H1; lia.
  - destruct l2 as [|y0 r2]; [apply znth_some_range in H2; unfold zlen in H2; simpl in H2; lia|].
    pose proof (znth_some_range _ _ _ H1). cbn [zip2]. destruct (Z.eq_dec k 0) as [->|Hk].
    + rewrite znth_cons_0 in *. congruence.
    + rewrite znth_cons_pos in * by lia. apply IH; assumption.
Qed.

Lemma drop_shape ds cs :
  zlen ds = zlen cs -> Forall (fun d => 0 <= d) ds -> Forall (fun c => - 2 ^ 63 < c < 2 ^ 63) cs ->
  map Z.abs (zip2 drop_to_take cs ds) = remaining ds cs.
Proof.
  revert cs. induction ds as [|d dr IH]; intros cs H Hnn HW; destruct cs as [|c cr]; try reflexivity.
  rewrite !zlen_cons in H. inversion Hnn; subst. inversion HW; subst. cbn [zip2 map remaining]. f_equal; [|apply IH; [lia|assumption|assumption]].
  unfold drop_to_take. rewrite wrap64_id by lia. destruct ((d <=? c) || (d <=? - c)) eqn:E; [lia|]. destruct (0 <? c) eqn:E2; lia.
Qed.

Lemma drop_src ds cs idx :
  zlen ds = zlen cs -> Forall (fun c => - 2 ^ 63 < c < 2 ^ 63) cs -> inb (remaining ds cs) idx ->
  shifted ds (zip2 drop_to_take cs ds) idx = skipped cs idx /\ inb ds (skipped cs idx).
Proof.
  revert cs idx. induction ds as [|d dr IH]; intros cs idx H HW Hin; destruct cs as [|c cr];
    try (unfold zlen in H; simpl in H; lia).
  - cbn [remaining] in Hin. inversion Hin; subst. split; [reflexivity|constructor].
  - rewrite !zlen_cons in H. inversion HW as [|? ? HW1 HWr]; subst. cbn [remaining] in Hin. inversion Hin as [|? i ? ir Hi Hir]; subst.
    destruct (IH cr ir ltac:(lia) ltac:(assumption) Hir) as [H1 H2].
    cbn [zip2 shifted skipped]. rewrite H1. split.
    + f_equal. unfold start, drop_to_take. rewrite wrap64_id by lia. destruct ((d <=? c) || (d <=? - c)) eqn:E; [lia|].
      destruct (0 <? c) eqn:E2; [replace (c - d <? 0) with true by lia|replace (c + d <? 0) with false by lia]; lia.
    + constructor; [lia|exact H2].
Qed.

Lemma drop_ok {A} (z iz : A) l (a : arr A) x0 xo cs :
  wf a -> l <> [] -> zlen l <= zlen (dims a) ->
  NoDup x0 -> Forall (fun k => 0 <= k < zlen (dims a)) x0 ->
  (xo = Some x0 \/ (xo = None /\ x0 = [])) ->
  counts_for (x0 ++ missing_axes (zlen (dims a)) x0) l (fun _ => 0) cs ->
  Forall (fun c => - 2 ^ 63 < c < 2 ^ 63) cs ->
  exists r, fst (drop z iz (Arr (vec l)) (Arr a) xo) = Ok (Arr r) /\ wf r /\
    dims r = remaining (dims a) cs /\
    forall idx, inb (remaining (dims a) cs) idx ->
      inb (dims a) (skipped cs idx) /\ elem r idx = elem a (skipped cs idx).
Proof.
  intros Hwf Hl Hlen Hnd Hr Hxo Hcs HW. unfold drop.
  rewrite (takedrop_unfold z iz false l a x0 Hl Hlen Hnd Hr xo Hxo). cbn [fst final_counts].
  destruct (complete_axis_ok (zlen (dims a)) x0 (zlen_nonneg _) Hnd Hr) as [_ Hp].
  set (x := x0 ++ missing_axes (zlen (dims a)) x0) in *.
  assert (Hzx : zlen x = zlen (dims a)) by (destruct Hp as (_ & H & _); exact H).
  assert (Hzc : zlen cs = zlen (dims a)) by (destruct Hcs as [H _]; lia).
  assert (Has : assigns x (padded false (dims a) x l) cs).
  { apply assigns_padded; [lia|]. exact Hcs. }
  destruct (Take_ok z (map (fun p => drop_to_take (fst p) (match znth (dims a) (snd p) with Some d => d | None => 0 end))
                         (combine (padded false (dims a) x l) x)) a x (zip2 drop_to_take cs (dims a)) Hwf Hp)
    as (r & Er & Hwr & Hdr & Hel).
  { destruct Has as (H1 & H2 & H3). split; [rewrite zlen_zip2; lia|]. split.
    - rewrite zlen_map. unfold zlen in *. rewrite combine_length. lia.
    - intros i k n Hk Hn. rewrite znth_map in Hn.
      pose proof (znth_some_range _ _ _ Hk) as Hir.
      destruct (znth_in_range (padded false (dims a) x l) i) as (c & Hc); [lia|].
      rewrite (znth_combine _ _ _ _ _ Hc Hk) in Hn. cbn [option_map fst snd] in Hn.
      specialize (H3 i k c Hk Hc).
      destruct (znth_in_range (dims a) k) as (d & Hd); [apply znth_some_range in H3; lia|].
      rewrite Hd in Hn. rewrite (znth_zip2 _ _ _ _ _ _ H3 Hd). exact Hn. }
  exists r. rewrite Er. split; [reflexivity|]. split; [exact Hwr|].
  rewrite drop_shape in Hdr, Hel by (try lia; try exact HW; apply wf_nonneg; assumption).
  split; [exact Hdr|]. intros idx Hin.
  destruct (drop_src (dims a) cs idx ltac:(lia) HW Hin) as [Hs Hi].
  split; [exact Hi|]. specialize (Hel idx Hin). cbv zeta in Hel. rewrite Hs in Hel. apply Hel. exact Hi.
Qed.

(* the default axes: counts are L followed by the defaults *)
Lemma missing_axes_nil rank : missing_axes rank [] = zseq rank.
Proof.
  unfold missing_axes. cbn [existsb negb]. generalize (zseq rank). intros l.
  induction l as [|x r IH]; simpl; [reflexivity|]. f_equal. exact IH.
Qed.

Lemma counts_default (l ds : list Z) (f : Z -> Z) (tailv : list Z) :
  zlen l <= zlen ds -> zlen tailv = zlen ds - zlen l ->
  (forall i v, znth tailv i = Some v -> v = f (zlen l + i)) ->
  counts_for ([] ++ missing_axes (zlen ds) []) l f (l ++ tailv).
Proof.
  intros Hl Ht Hv. cbn [app]. rewrite missing_axes_nil. pose proof (zlen_nonneg ds). split.
  - rewrite zlen_app, zlen_zseq. lia.
  - intros i k Hk. pose proof (znth_some_range _ _ _ Hk) as Hr. rewrite zlen_zseq in Hr.
    rewrite znth_zseq in Hk by lia. inversion Hk; subst k.
    destruct (znth l i) as [n|] eqn:E.
    + rewrite znth_app_l; [exact E|]. apply znth_some_range in E. lia.
    + apply znth_none in E. rewrite znth_app_r by lia.
      destruct (znth_in_range tailv (i - zlen l)) as (v & Hvv); [lia|].
      rewrite Hvv. rewrite (Hv _ _ Hvv). do 2 f_equal. lia.
Qed.

(* vectors *)
Lemma pos_vec n i : pos [n] [i] = i.
Proof. cbn [pos size]. lia. Qed.
Lemma inb_vec n i : inb [n] [i] <-> 0 <= i < n.
Proof.
  split; [intros H; inversion H; assumption|]. intros H. constructor; [exact H|constructor].
Qed.
Lemma elem_vec {A} (l : list A) i : elem (vec l) [i] = znth l i.
Proof. unfold elem, vec. cbn [dims elems]. rewrite pos_vec. reflexivity. Qed.
Lemma wf_vec {A} (l : list A) : wf (vec l).
Proof.
  unfold vec. split; [discriminate|]. cbn [dims elems size]. split; [|lia].
  constructor; [apply zlen_nonneg|constructor].
Qed.
Lemma wf_vec_eq {A} (r : arr A) n : wf r -> dims r = [n] -> r = vec (elems r).
Proof.
  intros (_ & _ & Hl) Hd. destruct r as [d l]. cbn [dims elems] in *. subst d. unfold vec. f_equal.
  cbn [size] in Hl. f_equal. lia.
Qed.

Lemma take_vec_pos {A} (z iz : A) n (l : list A) :
  0 <= n -> fst (take z iz (Arr (vec [n])) (Arr (vec l)) None) =
    Ok (Arr (vec (firstn (Z.to_nat n) l ++ repeat z (Z.to_nat (n - zlen l))))).
Proof.
  intros Hn. destruct (take_ok z iz [n] (vec l) [] None [n]) as (r & Er & Hwr & Hdr & Hel).
  - apply wf_vec.
  - discriminate.
  - unfold zlen; simpl; lia.
  - constructor.
  - constructor.
  - right; auto.
  - change [n] with ([n] ++ []) at 2. apply counts_default; [unfold zlen; simpl; lia|reflexivity|].
    intros i v Hv. apply znth_some_range in Hv. unfold zlen in Hv; simpl in Hv; lia.
  - rewrite Er. do 2 f_equal. cbn [map] in *. replace (Z.abs n) with n in * by lia.
    rewrite (wf_vec_eq r n Hwr Hdr). f_equal. unfold vec in Hel. cbn [dims] in Hel.
    destruct Hwr as (_ & _ & Hl). rewrite Hdr in Hl. cbn [size] in Hl.
    assert (Hlen : zlen (firstn (Z.to_nat n) l) = Z.min n (zlen l))
      by (unfold zlen; rewrite firstn_length; lia).
    pose proof (zlen_nonneg l).
    apply znth_ext; [rewrite zlen_app, zlen_repeat, Hlen; lia|].
    intros i Hi. specialize (Hel [i] (proj2 (inb_vec n i) ltac:(lia))).
    cbn [shifted] in Hel. unfold start in Hel. replace (n <? 0) with false in Hel by lia.
    replace (i + 0) with i in Hel by lia. unfold elem in Hel. rewrite Hdr in Hel. cbn [dims elems] in Hel.
    rewrite !pos_vec in Hel. destruct Hel as [H1 H2].
    destruct (Z.lt_ge_cases i (zlen l)) as [Hlt|Hge].
    + rewrite H1 by (apply inb_vec; lia). rewrite znth_app_l by lia. rewrite znth_firstn by lia. reflexivity.
    + rewrite H2 by (rewrite inb_vec; lia). rewrite znth_app_r by lia. rewrite znth_repeat by lia. reflexivity.
Qed.

Lemma take_vec_neg {A} (z iz : A) n (l : list A) :
  0 < n -> fst (take z iz (Arr (vec [-n])) (Arr (vec l)) None) =
    Ok (Arr (vec (repeat z (Z.to_nat (n - zlen l)) ++ skipn (Z.to_nat (zlen l - n)) l))).
Proof.
  intros Hn. destruct (take_ok z iz [-n] (vec l) [] None [-n]) as (r & Er & Hwr & Hdr & Hel).
  - apply wf_vec.
  - discriminate.
  - unfold zlen; simpl; lia.
  - constructor.
  - constructor.
  - right; auto.
  - change [-n] with ([-n] ++ []) at 2. apply counts_default; [unfold zlen; simpl; lia|reflexivity|].
    intros i v Hv. apply znth_some_range in Hv. unfold zlen in Hv; simpl in Hv; lia.
  - rewrite Er. do 2 f_equal. cbn [map] in *. replace (Z.abs (-n)) with n in * by lia.
    rewrite (wf_vec_eq r n Hwr Hdr). f_equal. unfold vec in Hel. cbn [dims] in Hel.
    destruct Hwr as (_ & _ & Hl). rewrite Hdr in Hl. cbn [size] in Hl. pose proof (zlen_nonneg l).
    assert (Hrep : zlen (repeat z (Z.to_nat (n - zlen l))) = Z.max 0 (n - zlen l)) by (rewrite zlen_repeat; lia).
    apply znth_ext; [rewrite zlen_app, Hrep, skipn_zlen; lia|].
    intros i Hi. specialize (Hel [i] (proj2 (inb_vec n i) ltac:(lia))).
    cbn [shifted] in Hel. unfold start in Hel. replace (- n <? 0) with true in Hel by lia.
    unfold elem in Hel. rewrite Hdr in Hel. cbn [dims elems] in Hel.
    rewrite !pos_vec in Hel. destruct Hel as [H1 H2].
    destruct (Z.lt_ge_cases i (n - zlen l)) as [Hlt|Hge].
    + rewrite H2 by (rewrite inb_vec; lia). rewrite znth_app_l by lia. rewrite znth_repeat by lia. reflexivity.
    + rewrite H1 by (apply inb_vec; lia). rewrite znth_app_r by lia. rewrite znth_skipn by lia. f_equal. lia.
Qed.

Lemma drop_vec {A} (z iz : A) c (l : list A) : - 2 ^ 63 < c < 2 ^ 63 ->
  fst (drop z iz (Arr (vec [c])) (Arr (vec l)) None) =
    Ok (Arr (vec (if 0 <=? c then skipn (Z.to_nat c) l else firstn (Z.to_nat (zlen l + c)) l))).
Proof.
  intros HW. destruct (drop_ok z iz [c] (vec l) [] None [c]) as (r & Er & Hwr & Hdr & Hel).
  - apply wf_vec.
  - discriminate.
  - unfold zlen; simpl; lia.
  - constructor.
  - constructor.
  - right; auto.
  - change [c] with ([c] ++ []) at 2. apply counts_default; [unfold zlen; simpl; lia|reflexivity|].
    intros i v Hv. apply znth_some_range in Hv. unfold zlen in Hv; simpl in Hv; lia.
  - constructor; [exact HW|constructor].
  - rewrite Er. do 2 f_equal. unfold vec in Hdr, Hel. cbn [dims remaining] in Hdr, Hel. pose proof (zlen_nonneg l).
    rewrite (wf_vec_eq r _ Hwr Hdr). f_equal.
    destruct Hwr as (_ & _ & Hl). rewrite Hdr in Hl. cbn [size] in Hl.
    apply znth_ext.
    + destruct (0 <=? c) eqn:E; [rewrite skipn_zlen; lia|]. unfold zlen in *. rewrite firstn_length. lia.
    + intros i Hi. specialize (Hel [i]). rewrite inb_vec in Hel. specialize (Hel ltac:(lia)).
      destruct Hel as [H1 H2]. cbn [skipped] in H1, H2. unfold elem in H2. rewrite Hdr in H2. cbn [dims elems] in H2.
      rewrite !pos_vec in H2. rewrite H2. destruct (0 <=? c) eqn:E.
      * rewrite znth_skipn by lia. f_equal. lia.
      * rewrite znth_firstn by lia. f_equal. lia.
Qed.
