(* P_Index.v -- proofs about bracket indexing. *)
From Verif Require Import Base M_Array S_Array P_Array M_Structural Eff M_Index S_Index.
Open Scope Z_scope.

Lemma map_sub_add o l k : map (fun i => i + o) l = k -> l = map (fun i => i - o) k.
Proof. intros <-. rewrite map_map. rewrite <- (map_id l) at 1. apply map_ext. intros; lia. Qed.

Lemma spec2ints_go_ok o spec ds sel : Forall (fun d => 0 <= d) ds -> selects o spec ds sel -> spec2ints_go o spec ds = Ok sel.
Proof.
  intros Hnn H. induction H as [|s d l spec ds sel Ha H IH]; [reflexivity|]. inversion Hnn; subst. cbn [spec2ints_go].
  rewrite IH by assumption. clear IH H.
  destruct s as [|k|]; cbn [axis_selects] in Ha; [|destruct Ha as (Hk & Hl)|contradiction].
  - subst l. destruct (Z.ltb_spec d 0); [lia|]. reflexivity.
  - assert (E : mapM (fun k => if (k - o <? 0) || (d <=? k - o) then Err else Ok (k - o)) k = Ok l).
    { subst k. clear - Hl. induction Hl as [|i l Hi Hl IH]; [reflexivity|]. cbn [map mapM].
      destruct (Z.ltb_spec (i + o - o) 0); [lia|]. destruct (Z.leb_spec d (i + o - o)); [lia|]. cbn [orb obind]. rewrite IH. cbn [obind]. do 2 f_equal. lia. }
    rewrite E. reflexivity.
Qed.
Lemma spec2ints_go_inv o spec : forall ds sel, Forall (fun d => 0 <= d) ds -> spec2ints_go o spec ds = Ok sel -> selects o spec ds sel.
Proof.
  induction spec as [|s spec IH]; intros [|d ds] sel Hnn H; try discriminate H.
  - injection H as <-. constructor.
  - inversion Hnn; subst. cbn [spec2ints_go] in H.
    match type of H with obind ?x _ = _ => destruct x as [l| |] eqn:El end; try discriminate H. cbn [obind] in H.
    destruct (spec2ints_go o spec ds) as [r| |] eqn:Er; try discriminate H. cbn [obind] in H. injection H as <-.
    constructor; [|apply IH; assumption]. destruct s as [|k|]; cbn [axis_selects]; [|clear - El|discriminate El].
    + destruct (Z.ltb_spec d 0); [lia|]. congruence.
    + revert l El. induction k as [|x k IHk]; intros l El; cbn [mapM] in El.
      * injection El as <-. split; [reflexivity|constructor].
      * destruct (Z.ltb_spec (x - o) 0); [discriminate El|]. destruct (Z.leb_spec d (x - o)); [discriminate El|]. cbn [orb obind] in El.
        destruct (mapM _ k) as [r| |]; try discriminate El. cbn [obind] in El. injection El as <-. destruct (IHk r eq_refl) as (A & B).
        split; [cbn [map]; rewrite A; f_equal; lia|constructor; [lia|exact B]].
Qed.
Lemma spec2ints_go_np o spec : forall ds, Forall (fun d => 0 <= d) ds -> spec2ints_go o spec ds <> Panic.
Proof.
  induction spec as [|s spec IH]; intros [|d ds] Hnn; try discriminate. inversion Hnn; subst. cbn [spec2ints_go].
  match goal with |- obind ?x _ <> _ => assert (Hx : x <> Panic); [|destruct x as [l| |]; try discriminate; try congruence] end.
  - destruct s as [|k|]; [destruct (Z.ltb_spec d 0); [lia|discriminate]| |discriminate].
    induction k as [|x k IHk]; [discriminate|]. cbn [mapM]. destruct (_ || _); [discriminate|]. cbn [obind]. destruct (mapM _ k); try discriminate. congruence.
  - cbn [obind]. specialize (IH ds H2). destruct (spec2ints_go o spec ds); try discriminate. congruence.
Qed.
Lemma selects_len o spec ds sel : selects o spec ds sel -> zlen spec = zlen ds /\ length sel = length ds.
Proof. induction 1 as [|s d l spec ds sel _ _ (I1 & I2)]; [split; reflexivity|]. unfold zlen in *. cbn [length]. lia. Qed.
Lemma spec2ints_ok o spec ds sel : Forall (fun d => 0 <= d) ds -> selects o spec ds sel -> spec2ints o spec ds = Ok sel.
Proof.
  intros Hnn H. unfold spec2ints. destruct (selects_len _ _ _ _ H) as (E & _). rewrite E, Z.eqb_refl. cbn [negb]. apply spec2ints_go_ok; assumption.
Qed.
Lemma spec2ints_err o spec ds : Forall (fun d => 0 <= d) ds -> (forall sel, ~ selects o spec ds sel) -> spec2ints o spec ds = Err.
Proof.
  intros Hnn H. unfold spec2ints. destruct (zlen spec =? zlen ds); [|reflexivity]. cbn [negb].
  destruct (spec2ints_go o spec ds) as [sel| |] eqn:E; [exfalso; exact (H sel (spec2ints_go_inv _ _ _ _ Hnn E))|reflexivity|].
  exfalso. exact (spec2ints_go_np _ _ _ Hnn E).
Qed.

Lemma addr_total o spec ds sel js : selects o spec ds sel -> inb (map zlen sel) js -> exists idx, addresses sel js idx /\ inb ds idx.
Proof.
  intros H. revert js. induction H as [|s d l spec ds sel Ha H IH]; intros js Hb; cbn [map] in Hb.
  - inversion Hb; subst. exists []. split; constructor.
  - inversion Hb as [|? j ? js' Hj Hb' E1 E2]; subst. destruct (IH js' Hb') as (idx & A & B).
    destruct (znth_in_range l j Hj) as (i & Hi). exists (i :: idx). split; constructor; try assumption.
    destruct s as [|k|]; cbn [axis_selects] in Ha; [|destruct Ha as (_ & Hl)|contradiction].
    + subst l. apply znth_In in Hi. apply In_zseq in Hi. exact Hi.
    + rewrite Forall_forall in Hl. apply Hl. eapply znth_In; exact Hi.
Qed.
Lemma addr_fun sel js i1 i2 : addresses sel js i1 -> addresses sel js i2 -> i1 = i2.
Proof.
  intros H. revert i2. induction H as [|l j i sel js idx E H IH]; intros i2 H2; inversion H2; subst; [reflexivity|]. f_equal; [congruence|apply IH; assumption].
Qed.
Lemma addr_mapM sel js idx : addresses sel js idx -> mapM (fun '(l, n) => zat l n) (combine sel js) = Ok idx.
Proof. induction 1 as [|l j i sel js idx E H IH]; [reflexivity|]. cbn [combine mapM]. unfold zat at 1. rewrite E. cbn [obind]. rewrite IH. reflexivity. Qed.

Lemma size_filter ds : size (filter notone ds) = size ds.
Proof. induction ds as [|d ds IH]; [reflexivity|]. cbn [filter]. unfold notone at 1. destruct (Z.eqb_spec d 1) as [->|]; cbn [negb size]; rewrite IH; lia. Qed.
Lemma lens_nn (sel : list (list Z)) : Forall (fun d => 0 <= d) (map zlen sel).
Proof. apply Forall_forall. intros d Hd. apply in_map_iff in Hd. destruct Hd as (l & <- & _). apply zlen_nonneg. Qed.

Lemma indexArray_ok o spec ds sel : ds <> [] -> Forall (fun d => 0 <= d) ds -> selects o spec ds sel ->
  exists I, indexArray o spec ds = Ok (mkArr (filter notone (map zlen sel)) I) /\ zlen I = size (map zlen sel) /\
    forall js idx, inb (map zlen sel) js -> addresses sel js idx -> inb ds idx /\ znth I (pos (map zlen sel) js) = Some (pos ds idx).
Proof.
  intros Hne Hnn H. unfold indexArray. rewrite (spec2ints_ok o spec ds sel Hnn H). cbn [obind].
  assert (Hni : NewIdxConverter ds = Ok (strides ds)) by (destruct ds; [congruence|reflexivity]). rewrite Hni. cbn [obind].
  destruct (selects_len _ _ _ _ H) as (_ & Hl).
  assert (Hsel : map zlen sel <> []) by (destruct sel; [destruct ds; [congruence|discriminate]|discriminate]).
  assert (HB : forall js, inb (map zlen sel) js -> exists x, (let* src := mapM (fun '(l, n) => zat l n) (combine sel js) in Ok (ic_index (strides ds) src)) = Ok x /\
     (exists idx, addresses sel js idx /\ inb ds idx /\ x = pos ds idx)).
  { intros js Hb. destruct (addr_total _ _ _ _ _ H Hb) as (idx & A & B). rewrite (addr_mapM _ _ _ A). cbn [obind].
    rewrite ic_index_pos by (eapply inb_length; exact B). eexists. split; [reflexivity|]. exists idx. auto. }
  match goal with |- context [fill (map zlen sel) ?b] => set (body := b) end.
  destruct (fill_is_array (map zlen sel) body (fun js => match body js with Ok x => Some x | _ => None end) Hsel (lens_nn sel)) as (r & Hr & (W1 & W2 & W3) & Hd & He).
  { intros js Hb. destruct (HB js Hb) as (x & Ex & _). exists x. unfold body. rewrite Ex. split; reflexivity. }
  rewrite Hr. cbn [obind]. exists (elems r). split; [reflexivity|]. split; [rewrite W3, Hd; reflexivity|].
  intros js idx Hb Ha. destruct (HB js Hb) as (x & Ex & idx' & A' & B' & ->). rewrite (addr_fun _ _ _ _ Ha A'). split; [exact B'|].
  specialize (He js Hb). unfold body in He. rewrite Ex in He. unfold elem in He. rewrite Hd in He. exact He.
Qed.
Lemma indexArray_err o spec ds : Forall (fun d => 0 <= d) ds -> (forall sel, ~ selects o spec ds sel) -> indexArray o spec ds = Err.
Proof. intros Hnn H. unfold indexArray. rewrite (spec2ints_err o spec ds Hnn H). reflexivity. Qed.

(* every position of the selection is inside the array *)
Lemma sel_positions o spec ds sel I : ds <> [] -> Forall (fun d => 0 <= d) ds -> selects o spec ds sel ->
  indexArray o spec ds = Ok (mkArr (filter notone (map zlen sel)) I) -> forall p, In p I -> exists idx, inb ds idx /\ p = pos ds idx.
Proof.
  intros Hne Hnn H E p Hp. destruct (indexArray_ok o spec ds sel Hne Hnn H) as (I' & E' & L & HI). assert (I' = I) by congruence. subst I'.
  apply In_znth in Hp. destruct Hp as (k & Hk). pose proof (znth_some_range _ _ _ Hk) as Hr. rewrite L in Hr.
  destruct (ic_indexes_spec (map zlen sel) k (lens_nn sel) Hr) as (js & _ & Hb & <-).
  destruct (addr_total _ _ _ _ _ H Hb) as (idx & A & B). destruct (HI js idx Hb A) as (_ & C). exists idx. split; [exact B|congruence].
Qed.

Lemma AtB_ok {A} (a : arr A) n x : znth (elems a) n = Some x -> AtB a n = Ok x.
Proof.
  intros H. pose proof (znth_some_range _ _ _ H). unfold AtB. destruct (Z.ltb_spec n 0); [lia|]. destruct (Z.leb_spec (zlen (elems a)) n); [lia|]. cbn [orb]. unfold At, zat. rewrite H. reflexivity.
Qed.

Lemma filter_size1 ds : Forall (fun d => 0 <= d) ds -> filter notone ds = [] -> size ds = 1.
Proof. intros _ H. rewrite <- size_filter, H. reflexivity. Qed.

Lemma index_ok {A} o spec (a : arr A) sel : wf a -> selects o spec (dims a) sel ->
  exists r, index o spec a = Ok r /\ zlen (elemsOf r) = size (map zlen sel) /\ shapeOf r = filter notone (map zlen sel) /\
    (filter notone (map zlen sel) = [] <-> exists x, r = Scal x) /\ r <> Emp /\
    forall js idx, inb (map zlen sel) js -> addresses sel js idx -> znth (elemsOf r) (pos (map zlen sel) js) = elem a idx /\ inb (dims a) idx.
Proof.
  intros (W1 & W2 & W3) H. destruct (indexArray_ok o spec (dims a) sel W1 W2 H) as (I & EI & LI & HI).
  assert (Hspec : spec <> []) by (intros ->; inversion H; congruence).
  assert (HL : exists l, mapM (AtB a) I = Ok l /\ zlen l = zlen I /\ forall k p, znth I k = Some p -> znth l k = znth (elems a) p).
  { assert (HP : forall p, In p I -> exists x, znth (elems a) p = Some x).
    { intros p Hp. destruct (sel_positions _ _ _ _ _ W1 W2 H EI p Hp) as (idx & Hb & ->). apply (elem_some a idx (conj W1 (conj W2 W3)) Hb). }
    clear - HP. induction I as [|p I IH]; [exists []; split; [reflexivity|]; split; [reflexivity|]; intros k q Hk; apply znth_In in Hk; contradiction|].
    destruct IH as (l & E & L & Hl); [intros q Hq; apply HP; right; exact Hq|]. destruct (HP p (or_introl eq_refl)) as (x & Hx).
    exists (x :: l). cbn [mapM]. rewrite (AtB_ok a p x Hx). cbn [obind]. rewrite E. cbn [obind]. split; [reflexivity|]. split; [rewrite !zlen_cons; lia|].
    intros k q Hk. pose proof (znth_some_range _ _ _ Hk) as Hr. rewrite zlen_cons in Hr. destruct (Z.eq_dec k 0) as [->|Hk0]; [cbn in Hk |- *; congruence|].
    rewrite znth_cons_pos in Hk by lia. rewrite znth_cons_pos by lia. apply Hl. exact Hk. }
  destruct HL as (l & El & Ll & Hl).
  assert (HE : forall js idx, inb (map zlen sel) js -> addresses sel js idx -> znth l (pos (map zlen sel) js) = elem a idx /\ inb (dims a) idx).
  { intros js idx Hb Ha. destruct (HI js idx Hb Ha) as (B & E). split; [|exact B]. rewrite (Hl _ _ E). reflexivity. }
  destruct (filter notone (map zlen sel)) as [|d ds] eqn:Ef.
  - pose proof (filter_size1 _ (lens_nn sel) Ef) as Hs. rewrite Hs in LI. destruct I as [|i [|i' I']]; [cbn in LI; lia| |rewrite !zlen_cons in LI; pose proof (zlen_nonneg I'); lia].
    cbn [mapM] in El. destruct (AtB a i) as [x| |] eqn:Ex; try discriminate El. cbn [obind] in El. injection El as <-.
    exists (Scal x). split; [unfold index; destruct spec; [congruence|]; rewrite EI; cbn [obind dims elems]; rewrite Ex; reflexivity|].
    split; [rewrite Hs; reflexivity|]. split; [reflexivity|]. split; [split; [eauto|reflexivity]|]. split; [discriminate|exact HE].
  - assert (HP : Prod (d :: ds) = zlen l) by (rewrite Prod_size by discriminate; rewrite <- Ef, size_filter, Ll, LI; reflexivity).
    exists (Arr (mkArr (d :: ds) l)). split.
    + unfold index. destruct spec as [|s0 spec0]; [congruence|]. rewrite EI. cbn [obind dims elems]. cbv iota. rewrite El. cbn [obind].
      rewrite HP. destruct (Z.ltb_spec (zlen l) 0); [pose proof (zlen_nonneg l); lia|]. rewrite Z.eqb_refl. reflexivity.
    + split; [cbn [elemsOf elems]; congruence|]. split; [reflexivity|]. split; [split; [discriminate|intros (x & E); discriminate]|]. split; [discriminate|exact HE].
Qed.
Lemma index_err {A} o spec (a : arr A) : wf a -> spec <> [] -> (forall sel, ~ selects o spec (dims a) sel) -> index o spec a = Err.
Proof. intros (W1 & W2 & W3) Hs H. unfold index. destruct spec; [congruence|]. rewrite (indexArray_err o _ (dims a) W2 H). reflexivity. Qed.
