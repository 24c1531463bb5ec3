(* P_Structural.v -- the property-level lemmas for C01..C16. *)
From Verif Require Import Base M_Array S_Array S_Structural P_Array M_Structural
  P_Reverse P_Transpose P_Take P_Comma.

Lemma odometer_enumerates :
  forall ds, ds <> [] -> Forall (fun d => 0 <= d) ds ->
  forall k, Z.of_nat k < size ds ->
  let idx := Nat.iter k (fun i => IncArrayIndex i ds) (repeat 0 (length ds)) in
  inb ds idx /\ pos ds idx = Z.of_nat k /\
  (Z.of_nat k = size ds - 1 -> IncArrayIndex idx ds = repeat 0 (length ds)).
Proof.
  intros ds Hne Hnn k. assert (Hstep : forall idx, inb ds idx ->
    inb ds (IncArrayIndex idx ds) /\
    (pos ds idx < size ds - 1 -> pos ds (IncArrayIndex idx ds) = pos ds idx + 1) /\
    (pos ds idx = size ds - 1 -> IncArrayIndex idx ds = repeat 0 (length ds))).
  { intros idx Hin. pose proof (inc_aux_spec ds idx Hin) as H. unfold IncArrayIndex.
    destruct (inc_aux idx ds) as [i' c]. destruct H as [H1 H2]. cbn [fst]. split; [exact H1|].
    pose proof (pos_range _ _ H1). destruct c.
    - destruct H2 as (Ha & Hb & Hc). split; [lia|]. intros _. exact Hc.
    - split; [lia|]. intros E. lia. }
  induction k as [|k IH]; intros Hk; cbn zeta.
  - cbn [Nat.iter nat_rect].
    assert (Hz : inb ds (repeat 0 (length ds))) by (apply (zeros_inb ds); apply size_pos_all; [exact Hnn|lia]).
    split; [exact Hz|]. split; [apply (pos_zeros ds)|]. intros E.
    destruct (Hstep _ Hz) as (_ & _ & H). apply H. change (repeat 0 (length ds)) with (zerosZ (length ds)). rewrite pos_zeros. lia.
  - cbn zeta in IH. destruct (IH ltac:(lia)) as (H1 & H2 & _).
    change (Nat.iter (S k) (fun i => IncArrayIndex i ds) (repeat 0 (length ds)))
      with (IncArrayIndex (Nat.iter k (fun i => IncArrayIndex i ds) (repeat 0 (length ds))) ds).
    destruct (Hstep _ H1) as (Ha & Hb & _). split; [exact Ha|]. rewrite Hb by lia. split; [lia|].
    intros E. apply (Hstep _ Ha). rewrite Hb by lia. lia.
Qed.

Lemma Set_ge_spec :
  forall (V A : Type) (conv : V -> option A) (a : arr A) i v,
  (~ (0 <= i < zlen (elems a)) -> Set_ge conv a i v = Err) /\
  (0 <= i < zlen (elems a) -> forall x, conv v = Some x ->
     exists a', Set_ge conv a i v = Ok a' /\ dims a' = dims a /\
       zlen (elems a') = zlen (elems a) /\ znth (elems a') i = Some x /\
       forall j, j <> i -> znth (elems a') j = znth (elems a) j) /\
  (0 <= i < zlen (elems a) -> conv v = None -> Set_ge conv a i v = Err).
Proof.
  intros V A conv a i v. unfold Set_ge. split; [|split].
  - intros H. replace ((i <? 0) || (zlen (elems a) <=? i)) with true by lia. reflexivity.
  - intros H x Hx. replace ((i <? 0) || (zlen (elems a) <=? i)) with false by lia. rewrite Hx.
    eexists. split; [reflexivity|]. cbn [dims elems]. split; [reflexivity|]. split; [apply zlen_zupd|].
    split; [apply znth_zupd_same; exact H|]. intros j Hj. apply znth_zupd_other. congruence.
  - intros H Hx. replace ((i <? 0) || (zlen (elems a) <=? i)) with false by lia. rewrite Hx. reflexivity.
Qed.

Lemma Set_gt_spec :
  forall (V A : Type) (conv : V -> option A) (a : arr A) i v, i <> zlen (elems a) ->
  (~ (0 <= i < zlen (elems a)) -> Set_gt conv a i v = Err) /\
  (0 <= i < zlen (elems a) -> forall x, conv v = Some x ->
     exists a', Set_gt conv a i v = Ok a' /\ dims a' = dims a /\
       zlen (elems a') = zlen (elems a) /\ znth (elems a') i = Some x /\
       forall j, j <> i -> znth (elems a') j = znth (elems a) j) /\
  (0 <= i < zlen (elems a) -> conv v = None -> Set_gt conv a i v = Err).
Proof.
  intros V A conv a i v Hne. unfold Set_gt. split; [|split].
  - intros H. replace ((i <? 0) || (zlen (elems a) <? i)) with true by lia. reflexivity.
  - intros H x Hx. replace ((i <? 0) || (zlen (elems a) <? i)) with false by lia. rewrite Hx.
    replace (i =? zlen (elems a)) with false by lia.
    eexists. split; [reflexivity|]. cbn [dims elems]. split; [reflexivity|]. split; [apply zlen_zupd|].
    split; [apply znth_zupd_same; exact H|]. intros j Hj. apply znth_zupd_other. congruence.
  - intros H Hx. replace ((i <? 0) || (zlen (elems a) <? i)) with false by lia. rewrite Hx. reflexivity.
Qed.

Lemma Set_gt_panics :
  forall (V A : Type) (conv : V -> option A) (a : arr A) v x,
  conv v = Some x -> Set_gt conv a (zlen (elems a)) v = Panic.
Proof.
  intros V A conv a v x Hx. unfold Set_gt. pose proof (zlen_nonneg (elems a)).
  replace ((zlen (elems a) <? 0) || (zlen (elems a) <? zlen (elems a))) with false by lia.
  rewrite Hx, Z.eqb_refl. reflexivity.
Qed.

Lemma ints_eq origin l : (origin = 0 \/ origin = 1) ->
  map (fun v => v - origin + 1) l = (if origin =? 0 then map (fun v => v + 1) l else l).
Proof.
  intros [->| ->]; cbn [Z.eqb].
  - apply map_ext. intros v. lia.
  - rewrite <- (map_id l) at 2. apply map_ext. intros v. lia.
Qed.

Lemma transpose_dyadic :
  forall (A : Type) origin (l : list Z) (a : arr A) m, (origin = 0 \/ origin = 1) ->
  wf a -> zlen l = zlen (dims a) ->
  let ints := map (fun v => v - origin + 1) l in
  (forall v, In v ints <-> 1 <= v <= m) ->
  exists r, fst (transpose origin (Some (Arr (vec l))) (Arr a)) = Ok (Arr r) /\ wf r /\
    zlen (dims r) = m /\
    (forall j, 0 <= j < m -> exists s, znth (dims r) j = Some s /\
       (forall k d, znth ints k = Some (j + 1) -> znth (dims a) k = Some d -> s <= d) /\
       (exists k, znth ints k = Some (j + 1) /\ znth (dims a) k = Some s)) /\
    (forall idx, inb (dims r) idx -> inb (dims a) (pick ints idx) /\ elem r idx = elem a (pick ints idx)).
Proof.
  intros A origin l a m Ho Hw Hl ints Hon.
  destruct (transpose_general origin l a ints m Hw Hl (ints_eq origin l Ho) Hon) as (r & _ & E & Hwr & Hz & Hd & Hel).
  exists r. rewrite E. split; [reflexivity|]. split; [exact Hwr|]. split; [exact Hz|]. split; [|exact Hel].
  intros j Hj. rewrite Hd. apply tshape_spec.
  - unfold ints. rewrite zlen_map. exact Hl.
  - apply wf_nonneg. exact Hw.
  - exact Hj.
  - apply Hon. lia.
Qed.

Lemma transpose_dyadic_rejects :
  forall (A : Type) origin (l : list Z) (a : arr A), (origin = 0 \/ origin = 1) ->
  let ints := map (fun v => v - origin + 1) l in
  (zlen l <> zlen (dims a) \/ (exists v, In v ints /\ v < 1) \/
   (exists v w, In v ints /\ 1 <= w < v /\ ~ In w ints)) ->
  fst (transpose origin (Some (Arr (vec l))) (Arr a)) = Err.
Proof. intros A origin l a Ho ints H. apply (transpose_rejects origin l a ints); [apply ints_eq; exact Ho|exact H]. Qed.

Lemma take_keeps_left :
  forall (A : Type) (z iz : A) (l : list Z) (a : arr A) xo,
  zlen l = zlen (dims a) ->
  snd (take z iz (Arr (vec l)) (Arr a) xo) = Arr (vec l).
Proof.
  intros A z iz l a xo Hl. unfold take, takedrop, vec. cbn [dims elems asArr].
  change (1 <? zlen [zlen l]) with false. cbv iota.
  destruct l as [|n l]; (destruct (complete_axis (zlen (dims a)) match xo with Some x => x | None => [] end); [|reflexivity..]).
  - rewrite <- Hl. reflexivity.
  - rewrite <- Hl. rewrite Z.ltb_irrefl. reflexivity.
Qed.

Lemma transpose_keeps_left : forall (A : Type) (L : option (val Z)) (R : val A), snd (transpose 1 L R) = L.
Proof.
  intros A L R. unfold transpose.
  assert (H : forall l rs, snd (transposeIndexes 1 (Some l) rs) = l).
  { intros l rs. unfold transposeIndexes. destruct (dims l) as [|l0 [|l1 lr]] eqn:E; try reflexivity.
    destruct (negb (l0 =? zlen rs)); [reflexivity|]. cbn [snd Z.eqb]. rewrite <- E. destruct l; reflexivity. }
  destruct L as [[x| |l]|]; destruct R as [y| |b]; try reflexivity;
    try (destruct (transposeIndexes _ _ _); reflexivity);
    match goal with |- context [transposeIndexes 1 (Some l) ?rs] =>
      specialize (H l rs); destruct (transposeIndexes 1 (Some l) rs) as [q l'] eqn:E end;
    cbn [snd] in H; subst l'; reflexivity.
Qed.

Lemma catenate_same_rank_ok :
  forall (A : Type) origin (L R : arr A) ax x l r,
  wf L -> wf R -> size (dims L) <> 0 -> size (dims R) <> 0 ->
  (ax = AxNone /\ x = zlen (dims R) - 1 \/ ax = AxInt (x + origin)) ->
  agree_but x (dims L) (dims R) -> znth (dims L) x = Some l -> znth (dims R) x = Some r ->
  exists res, catenate origin (Arr L) (Arr R) ax = Ok (Arr res) /\ wf res /\
    dims res = zupd (dims L) x (l + r) /\
    forall idx i, inb (zupd (dims L) x (l + r)) idx -> znth idx x = Some i ->
      (i < l -> elem res idx = elem L idx) /\
      (l <= i -> elem res idx = elem R (zupd idx x (i - l))).
Proof.
  intros A origin L R ax x l r HL HR HsL HsR Hax Hag Hl Hr.
  rewrite (catenate_same_rank origin L R ax x HL HR HsL HsR (proj1 Hag)).
  - destruct (join_ok L R x l r HL HR Hag Hl Hr) as (res & E & H1 & H2 & H3).
    exists res. split; [exact E|]. split; [exact H1|]. split; [exact H2|].
    intros idx i Hin Hi. destruct (H3 idx i Hin Hi) as [Ha Hb]. split; intros Hc; [apply Ha|apply Hb]; exact Hc.
  - pose proof (znth_some_range _ _ _ Hl). destruct Hax as [[-> ->]| ->]; cbn; [reflexivity|]. lia.
Qed.

Lemma catenate_mismatch_err :
  forall (A : Type) origin (L R : arr A) ax x,
  wf L -> wf R -> size (dims L) <> 0 -> size (dims R) <> 0 ->
  (ax = AxNone /\ x = zlen (dims R) - 1 \/ ax = AxInt (x + origin) /\ 0 <= x < zlen (dims L)) ->
  zlen (dims L) = zlen (dims R) -> ~ agree_but x (dims L) (dims R) ->
  catenate origin (Arr L) (Arr R) ax = Err.
Proof.
  intros A origin L R ax x HL HR HsL HsR Hax Hz Hag.
  apply (catenate_mismatch origin L R ax x); auto.
  destruct Hax as [[-> ->]|[-> Hx]]; cbn; [reflexivity|]. lia.
Qed.

Lemma catenate_lower_left_ok :
  forall (A : Type) origin (L R : arr A) ax x r,
  wf L -> wf R -> size (dims L) <> 0 -> size (dims R) <> 0 ->
  (ax = AxNone /\ x = zlen (dims R) - 1 \/ ax = AxInt (x + origin)) ->
  zlen (dims R) = zlen (dims L) + 1 -> znth (dims R) x = Some r -> dims L = del x (dims R) ->
  exists res, catenate origin (Arr L) (Arr R) ax = Ok (Arr res) /\ wf res /\
    dims res = zupd (dims R) x (1 + r) /\
    forall idx i, inb (zupd (dims R) x (1 + r)) idx -> znth idx x = Some i ->
      (i = 0 -> elem res idx = elem L (del x idx)) /\
      (1 <= i -> elem res idx = elem R (zupd idx x (i - 1))).
Proof.
  intros A origin L R ax x r HL HR HsL HsR Hax Hz Hr Hd. apply catenate_lower_left; auto.
  pose proof (znth_some_range _ _ _ Hr). destruct Hax as [[-> ->]| ->]; cbn; [reflexivity|]. lia.
Qed.

Lemma catenate_lower_right_ok :
  forall (A : Type) origin (L R : arr A) x l,
  wf L -> wf R -> size (dims L) <> 0 -> size (dims R) <> 0 ->
  zlen (dims L) = zlen (dims R) + 1 -> znth (dims L) x = Some l -> dims R = del x (dims L) ->
  exists res, catenate origin (Arr L) (Arr R) (AxInt (x + origin)) = Ok (Arr res) /\ wf res /\
    dims res = zupd (dims L) x (l + 1) /\
    forall idx i, inb (zupd (dims L) x (l + 1)) idx -> znth idx x = Some i ->
      (i < l -> elem res idx = elem L idx) /\
      (i = l -> elem res idx = elem R (del x idx)).
Proof.
  intros A origin L R x l HL HR HsL HsR Hz Hr Hd. apply catenate_lower_right; auto.
  pose proof (znth_some_range _ _ _ Hr). cbn. lia.
Qed.

Lemma catenate_scalar_left_ok :
  forall (A : Type) origin (s : A) (R : arr A) ax x r,
  wf R -> size (dims R) <> 0 -> (ax = AxNone /\ x = zlen (dims R) - 1 \/ ax = AxInt (x + origin)) ->
  znth (dims R) x = Some r ->
  exists res, catenate origin (Scal s) (Arr R) ax = Ok (Arr res) /\ wf res /\
    dims res = zupd (dims R) x (1 + r) /\
    forall idx i, inb (zupd (dims R) x (1 + r)) idx -> znth idx x = Some i ->
      (i = 0 -> elem res idx = Some s) /\
      (1 <= i -> elem res idx = elem R (zupd idx x (i - 1))).
Proof.
  intros A origin s R ax x r HR HsR Hax Hr. apply catenate_scalar_left; auto.
  pose proof (znth_some_range _ _ _ Hr). destruct Hax as [[-> ->]| ->]; cbn; [reflexivity|].
  split; [lia|]. change (zlen (@nil Z)) with 0. lia.
Qed.

Lemma catenate_scalar_right_ok :
  forall (A : Type) origin (s : A) (L : arr A) x l,
  wf L -> size (dims L) <> 0 -> znth (dims L) x = Some l ->
  exists res, catenate origin (Arr L) (Scal s) (AxInt (x + origin)) = Ok (Arr res) /\ wf res /\
    dims res = zupd (dims L) x (l + 1) /\
    forall idx i, inb (zupd (dims L) x (l + 1)) idx -> znth idx x = Some i ->
      (i < l -> elem res idx = elem L idx) /\
      (i = l -> elem res idx = Some s).
Proof.
  intros A origin s L x l HL HsL Hl. apply catenate_scalar_right; auto.
  pose proof (znth_some_range _ _ _ Hl). cbn. split; [lia|]. change (zlen (@nil Z)) with 0. lia.
Qed.

Lemma catenate_rank_err_ok :
  forall (A : Type) origin (L R : arr A) ax x,
  wf L -> wf R -> size (dims L) <> 0 -> size (dims R) <> 0 ->
  (ax = AxNone /\ x = zlen (dims R) - 1 \/ ax = AxInt (x + origin) /\ 0 <= x < Z.max (zlen (dims L)) (zlen (dims R))) ->
  zlen (dims L) + 2 <= zlen (dims R) \/ zlen (dims R) + 3 <= zlen (dims L) ->
  catenate origin (Arr L) (Arr R) ax = Err.
Proof.
  intros A origin L R ax x HL HR HsL HsR Hax Hd. apply (catenate_rank_err origin L R ax x); auto.
  destruct Hax as [[-> ->]|[-> Hx]]; cbn; [reflexivity|]. lia.
Qed.

Lemma laminate_delform {A} (L : arr A) (gL gR : list Z -> option A) (res : arr A) x :
  wf L -> 0 <= x <= zlen (dims L) -> dims res = insert x 2 (dims L) ->
  (forall idx, inb (dims L) idx -> elem res (insert x 0 idx) = gL idx /\ elem res (insert x 1 idx) = gR idx) ->
  zlen (dims res) = zlen (dims L) + 1 /\ znth (dims res) x = Some 2 /\ del x (dims res) = dims L /\
    forall idx, inb (dims res) idx -> inb (dims L) (del x idx) /\
      (znth idx x = Some 0 -> elem res idx = gL (del x idx)) /\
      (znth idx x = Some 1 -> elem res idx = gR (del x idx)).
Proof.
  intros HL Hx Hd Hel. rewrite Hd. split; [apply zlen_insert; exact Hx|]. split.
  { rewrite znth_insert by lia. replace (x <? x) with false by lia. rewrite Z.eqb_refl. reflexivity. }
  split; [apply del_insert; exact Hx|]. intros idx Hin.
  assert (Hin' : inb (dims L) (del x idx)).
  { rewrite <- (del_insert x 2 (dims L) Hx). apply inb_del; [exact Hin|rewrite zlen_insert by exact Hx; lia]. }
  split; [exact Hin'|]. destruct (Hel _ Hin') as [H0 H1]. split; intros Hi.
  - rewrite (insert_del x 0 idx Hi) in H0. exact H0.
  - rewrite (insert_del x 1 idx Hi) in H1. exact H1.
Qed.

Lemma laminate_by_axis :
  forall (A : Type) origin (L R : arr A) f,
  wf L -> wf R -> dims L = dims R ->
  let x := f - origin + 1 in 0 <= x <= zlen (dims L) ->
  exists res, catenate origin (Arr L) (Arr R) (AxFrac f) = Ok (Arr res) /\ wf res /\
    zlen (dims res) = zlen (dims L) + 1 /\ znth (dims res) x = Some 2 /\ del x (dims res) = dims L /\
    forall idx, inb (dims res) idx -> inb (dims L) (del x idx) /\
      (znth idx x = Some 0 -> elem res idx = elem L (del x idx)) /\
      (znth idx x = Some 1 -> elem res idx = elem R (del x idx)).
Proof.
  intros A origin L R f HL HR Hd x Hx. rewrite catenate_laminate by (cbn [shapeOf]; unfold x in *; lia). fold x.
  destruct (laminate_ok L R x HL HR Hd Hx) as (res & E & Hw & Hdr & Hel).
  exists res. split; [exact E|]. split; [exact Hw|].
  exact (laminate_delform L (elem L) (elem R) res x HL Hx Hdr Hel).
Qed.

Lemma laminate_scalar_by_axis :
  forall (A : Type) origin (s : A) (R : arr A) f, wf R ->
  let x := f - origin + 1 in 0 <= x <= zlen (dims R) ->
  exists res, catenate origin (Scal s) (Arr R) (AxFrac f) = Ok (Arr res) /\ wf res /\
    zlen (dims res) = zlen (dims R) + 1 /\ znth (dims res) x = Some 2 /\ del x (dims res) = dims R /\
    forall idx, inb (dims res) idx -> inb (dims R) (del x idx) /\
      (znth idx x = Some 0 -> elem res idx = Some s) /\
      (znth idx x = Some 1 -> elem res idx = elem R (del x idx)).
Proof.
  intros A origin s R f HR x Hx.
  rewrite catenate_laminate by (cbn [shapeOf]; change (zlen (@nil Z)) with 0; unfold x in *; lia). fold x.
  destruct (laminate_scalar_left s R x HR Hx) as (res & E & Hw & Hdr & Hel).
  exists res. split; [exact E|]. split; [exact Hw|].
  exact (laminate_delform R (fun _ => Some s) (elem R) res x HR Hx Hdr Hel).
Qed.

Lemma laminate_mismatch :
  forall (A : Type) origin (L R : arr A) f, dims L <> dims R ->
  catenate origin (Arr L) (Arr R) (AxFrac f) = Err.
Proof.
  intros A origin L R f H. unfold catenate, splitCatAxis.
  destruct ((f - origin <? -1) || _); [reflexivity|]. cbn [obind fst snd]. apply laminate_shape_err. exact H.
Qed.

Lemma laminate_axis_panic :
  forall (A : Type) origin (L R : arr A),
  dims L = dims R -> catenate origin (Arr L) (Arr R) (AxFrac (zlen (dims L) + origin)) = Panic.
Proof.
  intros A origin L R Hd. pose proof (zlen_nonneg (dims L)). rewrite catenate_laminate by (cbn [shapeOf]; rewrite <- Hd; lia).
  unfold laminate. cbn [asArr]. rewrite <- Hd. rewrite Z.eqb_refl. cbn [negb].
  assert (Hf : forallb (fun p => fst p =? snd p) (combine (dims L) (dims L)) = true).
  { generalize (dims L). intros l. induction l as [|d r IH]; [reflexivity|]. cbn. rewrite Z.eqb_refl. exact IH. }
  rewrite Hf. cbn [negb].
  replace ((zlen (dims L) + origin - origin + 1 <? 0) || (zlen (dims L) <? zlen (dims L) + origin - origin + 1)) with true by lia.
  reflexivity.
Qed.

Lemma ravel_row_major :
  forall (A : Type) (a : arr A), wf a ->
  ravel (Arr a) = Arr (vec (elems a)) /\
  map Some (elems a) = map (elem a) (all_idx (dims a)).
Proof.
  intros A a Hw. split; [reflexivity|]. pose proof (zlen_all_idx _ (wf_nonneg _ Hw)) as Hz.
  apply znth_ext; [rewrite !zlen_map, Hz; apply wf_len; exact Hw|].
  rewrite zlen_map. intros i Hi. rewrite (wf_len _ Hw), <- Hz in Hi.
  destruct (znth_in_range (all_idx (dims a)) i Hi) as (idx & Hidx).
  rewrite !znth_map, Hidx. cbn [option_map]. rewrite (ravel_order a i idx Hw Hidx).
  destruct (elem_some a idx Hw) as (v & Hv); [apply In_all_idx; eapply znth_In; eassumption|]. rewrite Hv. reflexivity.
Qed.
