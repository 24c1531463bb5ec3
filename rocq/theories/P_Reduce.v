(* P_Reduce.v -- proofs about reduce, scan and n-wise reduction. *)
From Verif Require Import Base M_Array S_Array S_Structural P_Array M_Structural
  P_Reverse P_Transpose P_Comma Eff S_Reduce M_Reduce.

(* ---- reduce is the right-to-left fold ---- *)
Lemma reduce_loop_app {S A} (f : A -> A -> eff S A) l1 l2 v s :
  reduce_loop f (l1 ++ l2) v s = (let! w := reduce_loop f l1 v in reduce_loop f l2 w) s.
Proof.
  revert v s. induction l1 as [|x r IH]; intros v s; [reflexivity|]. cbn [app reduce_loop].
  rewrite ebind_assoc. apply ebind_ext; [reflexivity|]. intros a t. apply IH.
Qed.
Lemma reduce_cons {S A} (f : A -> A -> eff S A) x y l s :
  reduce f (x :: y :: l) s = (let! v := reduce f (y :: l) in f x v) s.
Proof.
  unfold reduce. change (rev (x :: y :: l)) with (rev (y :: l) ++ [x]).
  destruct (rev (y :: l)) as [|v rest] eqn:E.
  - apply (f_equal (@length A)) in E. rewrite rev_length in E. discriminate.
  - cbn [app]. rewrite reduce_loop_app. apply ebind_ext; [reflexivity|]. intros a t. cbn [reduce_loop].
    apply ebind_ret_r.
Qed.
Lemma reduce_fold1 {S A} (f : A -> A -> eff S A) l s : reduce f l s = fold1 f l s.
Proof.
  revert s. induction l as [|x l IH]; intros s; [reflexivity|].
  destruct l as [|y l]; [reflexivity|]. rewrite reduce_cons. cbn [fold1].
  apply ebind_ext; [apply IH|reflexivity].
Qed.
Lemma fold1_pure {S A} (f : A -> A -> eff S A) (g : A -> A -> A) d l s :
  (forall x y t, f x y t = (Ok (g x y), t)) -> l <> [] -> fold1 f l s = (Ok (fold1p g d l), s).
Proof.
  intros Hf. revert s. induction l as [|x l IH]; intros s Hl; [congruence|].
  destruct l as [|y l]; [reflexivity|]. cbn [fold1]. unfold ebind. rewrite IH by discriminate.
  rewrite Hf. reflexivity.
Qed.

(* ---- lines ---- *)
Lemma ins_insert k i j : ins k i j = insert k i j.
Proof. reflexivity. Qed.
Lemma zupd_ins k i0 i j : 0 <= k <= zlen j -> zupd (ins k i0 j) k i = ins k i j.
Proof.
  intros H. rewrite !ins_insert. apply znth_ext; [rewrite zlen_zupd, !zlen_insert by lia; lia|].
  rewrite zlen_zupd, zlen_insert by lia. intros q Hq.
  destruct (Z.eq_dec q k) as [->|Hn].
  - rewrite znth_zupd_same by (rewrite zlen_insert; lia). rewrite znth_insert by lia.
    rewrite Z.ltb_irrefl, Z.eqb_refl. reflexivity.
  - rewrite znth_zupd_other by lia. rewrite !znth_insert by lia.
    replace (q =? k) with false by lia. reflexivity.
Qed.
Lemma inb_ins ds k n i j : znth ds k = Some n -> inb (del k ds) j -> 0 <= i < n -> inb ds (ins k i j).
Proof.
  intros Hn Hj Hi. pose proof (znth_some_range _ _ _ Hn) as Hr.
  rewrite <- (insert_del k n ds Hn). apply inb_insert; [rewrite zlen_del by lia; lia|exact Hj|exact Hi].
Qed.
Lemma zlen_inb_del ds k j : 0 <= k < zlen ds -> inb (del k ds) j -> zlen j = zlen ds - 1.
Proof. intros Hk Hj. apply inb_zlen in Hj. rewrite zlen_del in Hj by lia. lia. Qed.

Lemma line_ok {A} (a : arr A) k n j : wf a -> znth (dims a) k = Some n -> inb (del k (dims a)) j ->
  zlen (line a k n j) = n /\ forall i, 0 <= i < n -> znth (line a k n j) i = elem a (ins k i j).
Proof.
  intros Hw Hn Hj. pose proof (wf_nonneg _ Hw) as Hnn.
  assert (Hn0 : 0 <= n) by (rewrite Forall_znth in Hnn; eapply Hnn; exact Hn).
  assert (E : forall m, m <= n -> zlen (line a k m j) = Z.max 0 m /\ forall i, 0 <= i < m -> znth (line a k m j) i = elem a (ins k i j)).
  { intros m. unfold line. destruct (Z.le_gt_cases m 0) as [Hm|Hm].
    - intros _. rewrite zseq_nil by lia. cbn [flat_map]. split; [zln; lia|lia].
    - pattern m. apply Zlt_lower_bound_ind with (z := 1); [|lia]. clear m Hm. intros m IH Hm Hle.
      replace m with (m - 1 + 1) by lia. rewrite zseq_succ by lia. rewrite flat_map_app. cbn [flat_map].
      destruct (elem_some a (ins k (m - 1) j) Hw) as (x & Hx); [apply (inb_ins _ _ n); [exact Hn|exact Hj|lia]|].
      assert (IHm : zlen (flat_map (fun i => match elem a (ins k i j) with Some x => [x] | None => [] end) (zseq (m-1))) = m - 1 /\
        forall i, 0 <= i < m - 1 -> znth (flat_map (fun i => match elem a (ins k i j) with Some x => [x] | None => [] end) (zseq (m-1))) i = elem a (ins k i j)).
      { destruct (Z.eq_dec m 1) as [->|Hm1].
        - replace (1 - 1) with 0 by lia. rewrite zseq_nil by lia. split; [reflexivity|lia].
        - destruct (IH (m - 1)) as [I1 I2]; [lia|lia|]. split; [lia|exact I2]. }
      destruct IHm as [I1 I2]. rewrite Hx. rewrite app_nil_r. split.
      + rewrite zlen_app, I1. zln. lia.
      + intros i Hi. destruct (Z.eq_dec i (m - 1)) as [->|Hne].
        * rewrite znth_app_r by lia. rewrite I1. replace (m - 1 - (m - 1)) with 0 by lia. rewrite Hx. reflexivity.
        * rewrite znth_app_l by lia. apply I2. lia. }
  destruct (E n) as [E1 E2]; [lia|]. split; [lia|exact E2].
Qed.

Lemma read_line_ok {A} (a : arr A) k n i0 j :
  wf a -> znth (dims a) k = Some n -> inb (del k (dims a)) j ->
  read_line a (strides (dims a)) (ins k i0 j) k n = Ok (line a k n j).
Proof.
  intros Hw Hn Hj. pose proof (znth_some_range _ _ _ Hn) as Hk.
  pose proof (zlen_inb_del _ _ _ Hk Hj) as Hz.
  destruct (line_ok a k n j Hw Hn Hj) as [L1 L2]. unfold read_line.
  apply mapM_Forall2. apply Forall2_from_znth.
  - pose proof (zlen_nonneg (line a k n j)). rewrite zlen_zseq, L1. lia.
  - intros i x y Hx Hy. pose proof (znth_some_range _ _ _ Hx) as Hi. rewrite zlen_zseq in Hi.
    rewrite znth_zseq in Hx by lia. inversion Hx; subst x.
    rewrite L2 in Hy by lia. rewrite zupd_ins by lia.
    assert (Hin : inb (dims a) (ins k i j)) by (apply (inb_ins _ _ n); [exact Hn|exact Hj|lia]).
    rewrite ic_index_pos by (apply inb_length; exact Hin). apply zat_ok. exact Hy.
Qed.

(* ---- reduce along an axis ---- *)
Lemma norm_axis_eq rank axis : (if axis <? 0 then rank + axis else axis) = norm_axis rank axis.
Proof. reflexivity. Qed.

Lemma mapM_At_vec {A} (l : list A) : mapM (At (vec l)) (zseq (zlen l)) = Ok l.
Proof.
  apply mapM_Forall2. apply Forall2_from_znth; [rewrite zlen_zseq; zln; lia|].
  intros i x y Hx Hy. pose proof (znth_some_range _ _ _ Hy) as Hi. rewrite znth_zseq in Hx by lia.
  inversion Hx; subst. apply zat_ok. exact Hy.
Qed.

Lemma reduct_vector {S A} (f : A -> A -> eff S A) ident (l : list A) axis s :
  2 <= zlen l -> axis = -1 \/ axis = 0 ->
  reduct f ident (Arr (vec l)) axis s = emap Scal (fold1 f l) s.
Proof.
  intros Hl Hax. unfold reduct, asArr. cbn [dims vec].
  replace (zlen l =? 1) with false by lia. change (zlen [zlen l]) with 1. cbn [Z.eqb].
  replace (if axis <? 0 then 1 + axis else axis) with 0 by (destruct Hax; subst; reflexivity).
  cbn [Z.ltb Z.compare Z.leb orb]. change (zat [zlen l] 0) with (Ok (zlen l)).
  unfold elift. unfold ebind at 1. replace (zlen l =? 1) with false by lia.
  replace (zlen l =? 0) with false by lia. cbn [Pos.eqb].
  rewrite mapM_At_vec. unfold emap, ebind. rewrite reduce_fold1. reflexivity.
Qed.

Lemma reduct_axis {S A} (f : A -> A -> eff S A) ident (a : arr A) axis k n s :
  wf a -> 2 <= zlen (dims a) -> k = norm_axis (zlen (dims a)) axis -> znth (dims a) k = Some n -> 2 <= n ->
  reduct f ident (Arr a) axis s =
  (let! l := mapE (fun j => fold1 f (line a k n j)) (all_idx (del k (dims a))) in
   eret (Arr (mkArr (del k (dims a)) l))) s.
Proof.
  intros Hw Hr Hk Hn Hn2. pose proof (znth_some_range _ _ _ Hn) as Hkr.
  pose proof (wf_nonneg _ Hw) as Hnn. unfold reduct, asArr.
  replace (match dims a with [d] => d =? 1 | _ => false end) with false
    by (destruct (dims a) as [|d [|d' r]]; [zln; lia|zln; lia|reflexivity]).
  replace (zlen (dims a) =? 0) with false by lia.
  rewrite norm_axis_eq, <- Hk. replace ((k <? 0) || (zlen (dims a) <=? k)) with false by lia.
  unfold zat. rewrite Hn. unfold elift. unfold ebind at 1.
  replace (n =? 1) with false by lia. replace (n =? 0) with false by lia.
  replace (zlen (dims a) =? 1) with false by lia.
  rewrite NewIdxConverter_ok by (apply wf_dims_ne; exact Hw). unfold ebind at 1.
  fold (del k (dims a)).
  assert (Hdn : Forall (fun d => 0 <= d) (del k (dims a))).
  { unfold del. apply Forall_app. split; rewrite Forall_forall in *; intros x Hx; apply Hnn.
    - rewrite <- (firstn_skipn (Z.to_nat k) (dims a)). apply in_or_app. left. exact Hx.
    - rewrite <- (firstn_skipn (Z.to_nat k + 1) (dims a)). apply in_or_app. right. exact Hx. }
  assert (Hdne : del k (dims a) <> []).
  { intros E. pose proof (zlen_del k (dims a) Hkr) as Hz. rewrite E in Hz. zln. lia. }
  unfold ebind at 1. rewrite fillE_eq by assumption. unfold emap, ebind at 1.
  rewrite (mapE_ext _ (fun j => fold1 f (line a k n j))).
  - unfold ebind, eret. destruct (mapE _ _ s) as [[l| |] s']; reflexivity.
  - intros j t Hj. apply In_all_idx in Hj. unfold ebind. fold (ins k 0 j).
    rewrite (read_line_ok a k n 0 j Hw Hn Hj). apply reduce_fold1.
Qed.

(* ---- axis of length one, empty axis, other cases ---- *)
Lemma wf_del_ne {A} (a : arr A) k : wf a -> 2 <= zlen (dims a) -> 0 <= k < zlen (dims a) ->
  del k (dims a) <> [] /\ Forall (fun d => 0 <= d) (del k (dims a)).
Proof.
  intros Hw Hr Hk. pose proof (wf_nonneg _ Hw) as Hnn. split.
  - intros E. pose proof (zlen_del k (dims a) Hk) as Hz. rewrite E in Hz. zln. lia.
  - unfold del. apply Forall_app. split; rewrite Forall_forall in *; intros x Hx; apply Hnn.
    + rewrite <- (firstn_skipn (Z.to_nat k) (dims a)). apply in_or_app. left. exact Hx.
    + rewrite <- (firstn_skipn (Z.to_nat k + 1) (dims a)). apply in_or_app. right. exact Hx.
Qed.
Lemma reduct_len1 {S A} (f : A -> A -> eff S A) ident (a : arr A) axis k s :
  wf a -> 2 <= zlen (dims a) -> k = norm_axis (zlen (dims a)) axis -> znth (dims a) k = Some 1 ->
  size (dims a) <> 0 ->
  exists r, reduct f ident (Arr a) axis s = (Ok (Arr r), s) /\ wf r /\ dims r = del k (dims a) /\
    forall j, inb (del k (dims a)) j -> elem r j = elem a (ins k 0 j).
Proof.
  intros Hw Hr Hk Hn Hs. pose proof (znth_some_range _ _ _ Hn) as Hkr.
  destruct (wf_del_ne a k Hw Hr Hkr) as [Hdne Hdn]. unfold reduct, asArr.
  replace (match dims a with [d] => d =? 1 | _ => false end) with false
    by (destruct (dims a) as [|d [|d' r]]; [zln; lia|zln; lia|reflexivity]).
  replace (zlen (dims a) =? 0) with false by lia.
  rewrite norm_axis_eq, <- Hk. replace ((k <? 0) || (zlen (dims a) <=? k)) with false by lia.
  unfold zat. rewrite Hn. unfold elift. unfold ebind at 1. cbn [Z.eqb Pos.eqb]. fold (del k (dims a)).
  assert (Hds : size (dims a) = size (del k (dims a))).
  { rewrite <- (insert_del k 1 (dims a) Hn) at 1. rewrite size_insert by (rewrite zlen_del by lia; lia). lia. }
  assert (Hpos : forall j, inb (del k (dims a)) j -> pos (dims a) (ins k 0 j) = pos (del k (dims a)) j).
  { intros j Hj. rewrite <- (insert_del k 1 (dims a) Hn) at 1. change (ins k 0 j) with (insert k 0 j). apply pos_insert1.
    - rewrite zlen_del by lia. lia.
    - symmetry. apply inb_zlen. exact Hj. }
  destruct (Reshape_spec a (del k (dims a))) as (r & E & Hwr & Hdr & Hel).
  - intros E. pose proof (wf_len _ Hw) as Hl. rewrite E in Hl. zln. lia.
  - exact Hdne.
  - exact Hdn.
  - exists r. unfold ebind. rewrite E. split; [reflexivity|]. split; [exact Hwr|]. split; [exact Hdr|].
    intros j Hj. unfold elem. rewrite Hdr. pose proof (pos_range _ _ Hj) as Hp.
    rewrite Hel by exact Hp. rewrite Hpos by exact Hj. f_equal. apply Z.mod_small.
    rewrite (wf_len _ Hw), Hds. exact Hp.
Qed.
Lemma reduct_empty_axis {S A} (f : A -> A -> eff S A) i (a : arr A) axis k s :
  wf a -> 2 <= zlen (dims a) -> k = norm_axis (zlen (dims a)) axis -> znth (dims a) k = Some 0 ->
  exists r, reduct f (Some i) (Arr a) axis s = (Ok (Arr r), s) /\ wf r /\ dims r = del k (dims a) /\
    forall j, inb (del k (dims a)) j -> elem r j = Some i.
Proof.
  intros Hw Hr Hk Hn. pose proof (znth_some_range _ _ _ Hn) as Hkr.
  destruct (wf_del_ne a k Hw Hr Hkr) as [Hdne Hdn]. unfold reduct, asArr.
  replace (match dims a with [d] => d =? 1 | _ => false end) with false
    by (destruct (dims a) as [|d [|d' r]]; [zln; lia|zln; lia|reflexivity]).
  replace (zlen (dims a) =? 0) with false by lia.
  rewrite norm_axis_eq, <- Hk. replace ((k <? 0) || (zlen (dims a) <=? k)) with false by lia.
  unfold zat. rewrite Hn. unfold elift. unfold ebind at 1. cbn [Z.eqb Pos.eqb]. fold (del k (dims a)).
  destruct (Reshape_spec (mkArr [1] [i]) (del k (dims a))) as (r & E & Hwr & Hdr & Hel);
    [discriminate|exact Hdne|exact Hdn|].
  exists r. unfold ebind. rewrite E. split; [reflexivity|]. split; [exact Hwr|]. split; [exact Hdr|].
  intros j Hj. unfold elem. rewrite Hdr. rewrite Hel by (apply pos_range; exact Hj).
  cbn [elems]. change (zlen [i]) with 1. rewrite Z.mod_1_r. reflexivity.
Qed.
Lemma reduct_bad_axis {S A} (f : A -> A -> eff S A) ident (a : arr A) axis s :
  dims a <> [] -> dims a <> [1] ->
  (norm_axis (zlen (dims a)) axis < 0 \/ zlen (dims a) <= norm_axis (zlen (dims a)) axis) ->
  reduct f ident (Arr a) axis s = (Err, s).
Proof.
  intros Hne H1 Hax. unfold reduct, asArr.
  replace (match dims a with [d] => d =? 1 | _ => false end) with false.
  2:{ destruct (dims a) as [|d [|d' r]]; try reflexivity. destruct (Z.eqb_spec d 1); congruence. }
  replace (zlen (dims a) =? 0) with false by (destruct (dims a) as [|d r]; [congruence|zln; lia]).
  rewrite norm_axis_eq.
  replace ((norm_axis (zlen (dims a)) axis <? 0) || (zlen (dims a) <=? norm_axis (zlen (dims a)) axis)) with true by lia.
  reflexivity.
Qed.

(* ---- writing lines ---- *)
Definition set_ok {A} (set : list A -> Z -> A -> outcome (list A)) : Prop :=
  forall res i v, 0 <= i < zlen res -> set res i v = Ok (zupd res i v).
Lemma setP_ok {A} : set_ok (@setP A).
Proof. intros res i v H. unfold setP. destruct (znth_in_range res i H) as (x & ->). reflexivity. Qed.
Lemma setI_ok {A} : set_ok (@setI A).
Proof. intros res i v H. reflexivity. Qed.

(* writes that stay on the axis and do not overlap *)
Definition good_writes {A} (m : Z) (ps : list (Z * A)) : Prop :=
  NoDup (map fst ps) /\ Forall (fun p => 0 <= fst p < m) ps.

Lemma ins_inj ds k m i1 i2 j1 j2 : znth ds k = Some m -> inb (del k ds) j1 -> inb (del k ds) j2 ->
  0 <= i1 < m -> 0 <= i2 < m -> pos ds (ins k i1 j1) = pos ds (ins k i2 j2) -> i1 = i2 /\ j1 = j2.
Proof.
  intros Hm Hj1 Hj2 Hi1 Hi2 H. pose proof (znth_some_range _ _ _ Hm) as Hk.
  apply pos_inj in H; [|apply (inb_ins _ _ m); assumption|apply (inb_ins _ _ m); assumption].
  pose proof (zlen_inb_del _ _ _ Hk Hj1) as Hz1. pose proof (zlen_inb_del _ _ _ Hk Hj2) as Hz2.
  split.
  - assert (E : znth (ins k i1 j1) k = znth (ins k i2 j2) k) by (rewrite H; reflexivity).
    rewrite !ins_insert, !znth_insert in E by lia. rewrite Z.ltb_irrefl, Z.eqb_refl in E. congruence.
  - rewrite <- (del_insert k i1 j1) by lia. rewrite <- (del_insert k i2 j2) by lia.
    rewrite <- !ins_insert. rewrite H. reflexivity.
Qed.

Lemma write_line_spec {A} (set : list A -> Z -> A -> outcome (list A)) ds k m i0 j :
  set_ok set -> znth ds k = Some m -> inb (del k ds) j ->
  forall ps res, zlen res = size ds -> good_writes m ps ->
  exists res', write_line set (strides ds) (ins k i0 j) k ps res = Ok res' /\ zlen res' = zlen res /\
    (forall p, In p ps -> znth res' (pos ds (ins k (fst p) j)) = Some (snd p)) /\
    (forall q, (forall p, In p ps -> q <> pos ds (ins k (fst p) j)) -> znth res' q = znth res q).
Proof.
  intros Hset Hm Hj. pose proof (znth_some_range _ _ _ Hm) as Hk.
  pose proof (zlen_inb_del _ _ _ Hk Hj) as Hz.
  induction ps as [|[i v] ps IH]; intros res Hres [Hnd Hrg]; cbn [write_line].
  - exists res. split; [reflexivity|]. split; [reflexivity|]. split; [intros p []|reflexivity].
  - rewrite zupd_ins by lia. inversion Hnd as [|i' l' Hni Hnd' E1]; subst.
    apply Forall_cons_iff in Hrg. destruct Hrg as [Hi Hrg]. cbn [fst] in Hi, Hni.
    assert (Hin : inb ds (ins k i j)) by (apply (inb_ins _ _ m); assumption).
    rewrite ic_index_pos by (apply inb_length; exact Hin).
    pose proof (pos_range _ _ Hin) as Hp.
    rewrite Hset by lia. cbn [obind].
    destruct (IH (zupd res (pos ds (ins k i j)) v)) as (res' & E & Hl & Hp1 & Hp2).
    + rewrite zlen_zupd. exact Hres.
    + split; assumption.
    + exists res'. split; [exact E|]. split; [rewrite Hl; apply zlen_zupd|]. split.
      * intros p [<-|Hinp].
        -- cbn [fst snd]. rewrite Hp2; [apply znth_zupd_same; lia|]. intros p Hinp He.
           apply Hni. destruct (ins_inj ds k m i (fst p) j j Hm Hj Hj Hi) as [Ei _]; [|exact He|].
           ++ rewrite Forall_forall in Hrg. apply Hrg. exact Hinp.
           ++ rewrite Ei. apply in_map. exact Hinp.
        -- apply Hp1. exact Hinp.
      * intros q Hq. rewrite Hp2 by (intros p Hinp; apply Hq; right; exact Hinp).
        apply znth_zupd_other. intros He. apply (Hq (i, v)); [left; reflexivity|]. symmetry. exact He.
Qed.

(* the lines loop over an explicit list of indexes *)
Fixpoint lines_list {S A} (set : list A -> Z -> A -> outcome (list A)) (dc : list Z) (axis : Z)
    (compute : list Z -> eff S (list (Z * A))) (l : list (list Z)) (res : list A) : eff S (list A) :=
  match l with
  | [] => eret res
  | idx :: r =>
      let! ps := compute idx in
      let! res' := elift (write_line set dc idx axis ps res) in
      lines_list set dc axis compute r res'
  end.
Lemma lines_loop_from {S A} ds set dc axis (compute : list Z -> eff S (list (Z * A))) n idx :
  inb ds idx -> Z.of_nat n <= size ds - pos ds idx -> forall res s,
  lines_loop n idx ds set dc axis compute res s =
  lines_list set dc axis compute (firstn n (skipn (Z.to_nat (pos ds idx)) (all_idx ds))) res s.
Proof.
  revert idx. induction n as [|n IH]; intros idx Hin Hn res s; [reflexivity|].
  pose proof (pos_range ds idx Hin) as Hr.
  pose proof (znth_all_idx ds idx Hin) as Hz. unfold znth in Hz.
  replace (pos ds idx <? 0) with false in Hz by lia.
  rewrite (skipn_cons_nth _ _ _ Hz). cbn [lines_loop firstn lines_list].
  unfold ebind. destruct (compute idx s) as [[ps| |] s1]; try reflexivity.
  unfold elift. destruct (write_line set dc idx axis ps res) as [res'| |]; try reflexivity.
  destruct n as [|n0].
  - reflexivity.
  - pose proof (inc_aux_spec ds idx Hin) as Hi. unfold IncArrayIndex.
    destruct (inc_aux idx ds) as [idx' c]. cbn [fst]. destruct Hi as [Hin' Hc].
    destruct c; [lia|].
    rewrite IH; [|exact Hin'|lia].
    replace (Z.to_nat (pos ds idx')) with (Datatypes.S (Z.to_nat (pos ds idx))) by lia.
    reflexivity.
Qed.
Lemma lines_loop_all {S A} ds set dc axis (compute : list Z -> eff S (list (Z * A))) res s :
  Forall (fun d => 0 <= d) ds ->
  lines_loop (Z.to_nat (size ds)) (zerosZ (length ds)) ds set dc axis compute res s =
  lines_list set dc axis compute (all_idx ds) res s.
Proof.
  intros Hnn. pose proof (size_nonneg _ Hnn) as Hs.
  pose proof (zlen_all_idx ds Hnn) as Hlen. unfold zlen in Hlen.
  destruct (Z.eq_dec (size ds) 0) as [E|E].
  - rewrite E. destruct (all_idx ds) as [|x r]; [reflexivity|]. cbn [length] in Hlen. lia.
  - assert (Hpos : Forall (fun d => 0 < d) ds) by (apply size_pos_all; [assumption|lia]).
    rewrite lines_loop_from; [|apply zeros_inb; assumption|rewrite pos_zeros; lia].
    rewrite pos_zeros. cbn [Z.to_nat skipn]. rewrite firstn_all2 by lia. reflexivity.
Qed.

(* the indexes with the axis set to one line *)
Lemma all_idx_line ds k n : znth ds k = Some n ->
  all_idx (zupd ds k 1) = map (ins k 0) (all_idx (del k ds)).
Proof.
  revert k. induction ds as [|d r IH]; intros k Hn; [unfold znth in Hn; destruct (k <? 0); [|destruct (Z.to_nat k)]; discriminate|].
  pose proof (znth_some_range _ _ _ Hn) as Hk.
  destruct (Z.eq_dec k 0) as [->|Hk0].
  - change (zupd (d :: r) 0 1) with (1 :: r). change (del 0 (d :: r)) with r.
    cbn [all_idx]. change (zseq 1) with [0]. cbn [flat_map]. rewrite app_nil_r. apply map_ext. reflexivity.
  - rewrite zlen_cons in Hk. rewrite znth_cons_pos in Hn by lia.
    assert (E1 : zupd (d :: r) k 1 = d :: zupd r (k - 1) 1).
    { unfold zupd. replace (k <? 0) with false by lia. replace (k - 1 <? 0) with false by lia.
      replace (Z.to_nat k) with (Datatypes.S (Z.to_nat (k - 1))) by lia. reflexivity. }
    assert (E2 : del k (d :: r) = d :: del (k - 1) r).
    { unfold del. replace (Z.to_nat k) with (Datatypes.S (Z.to_nat (k - 1))) by lia. reflexivity. }
    rewrite E1, E2. cbn [all_idx]. rewrite (IH (k - 1) Hn).
    rewrite !flat_map_concat_map, concat_map, map_map. f_equal. apply map_ext. intros i.
    rewrite !map_map. apply map_ext. intros j. unfold ins.
    replace (Z.to_nat k) with (Datatypes.S (Z.to_nat (k - 1))) by lia. reflexivity.
Qed.
Lemma NoDup_all_idx ds : Forall (fun d => 0 <= d) ds -> NoDup (all_idx ds).
Proof.
  intros Hnn. apply (NoDup_map_inv (pos ds)). rewrite <- zseq_pos by exact Hnn. apply NoDup_zseq.
Qed.

Lemma lines_list_spec {S A} set ds k m (compute : list Z -> eff S (list (Z * A))) :
  set_ok set -> znth ds k = Some m ->
  forall js, NoDup js -> Forall (inb (del k ds)) js ->
  (forall j t ps t', In j js -> compute (ins k 0 j) t = (Ok ps, t') -> good_writes m ps) ->
  forall res s, zlen res = size ds ->
  match mapE (fun j => compute (ins k 0 j)) js s with
  | (Ok rows, s') => exists res',
      lines_list set (strides ds) k compute (map (ins k 0) js) res s = (Ok res', s') /\
      zlen res' = zlen res /\
      Forall2 (fun j row => forall p, In p row -> znth res' (pos ds (ins k (fst p) j)) = Some (snd p)) js rows /\
      (forall q, (forall j i, In j js -> 0 <= i < m -> q <> pos ds (ins k i j)) -> znth res' q = znth res q)
  | (Err, s') => lines_list set (strides ds) k compute (map (ins k 0) js) res s = (Err, s')
  | (Panic, s') => lines_list set (strides ds) k compute (map (ins k 0) js) res s = (Panic, s')
  end.
Proof.
  intros Hset Hm. induction js as [|j js IH]; intros Hnd Hin Hgood res s Hres.
  - cbn [map mapE lines_list]. unfold eret. exists res. split; [reflexivity|]. split; [reflexivity|]. split; [constructor|reflexivity].
  - inversion Hnd as [|j' js' Hnj Hnd' E1]; subst. apply Forall_cons_iff in Hin. destruct Hin as [Hj Hjs].
    destruct (compute (ins k 0 j) s) as [[ps| |] s1] eqn:Ec;
      [|cbn [map mapE lines_list]; unfold ebind; rewrite Ec; reflexivity..].
    pose proof (Hgood j s ps s1 (or_introl eq_refl) Ec) as Hg.
    destruct (write_line_spec set ds k m 0 j Hset Hm Hj ps res Hres Hg) as (res1 & E & Hl1 & Hw1 & Hw2).
    assert (EL : lines_list set (strides ds) k compute (map (ins k 0) (j :: js)) res s =
                 lines_list set (strides ds) k compute (map (ins k 0) js) res1 s1).
    { cbn [map lines_list]. unfold ebind, elift. rewrite Ec, E. reflexivity. }
    assert (EM : mapE (fun j => compute (ins k 0 j)) (j :: js) s =
                 match mapE (fun j => compute (ins k 0 j)) js s1 with
                 | (Ok rows, s') => (Ok (ps :: rows), s') | (Err, s') => (Err, s') | (Panic, s') => (Panic, s') end).
    { cbn [mapE]. unfold ebind, eret. rewrite Ec. reflexivity. }
    rewrite EL, EM.
    assert (IH' := IH Hnd' Hjs (fun j' t ps' t' Hi He => Hgood j' t ps' t' (or_intror Hi) He) res1 s1 (eq_trans Hl1 Hres)).
    destruct (mapE (fun j => compute (ins k 0 j)) js s1) as [[rows| |] s2] eqn:Em; [|exact IH'..].
    destruct IH' as (res2 & E2 & Hl2 & HF & Hq). exists res2.
    split; [exact E2|]. split; [lia|]. split.
    + constructor; [|exact HF]. intros p Hp. rewrite Hq; [apply Hw1; exact Hp|].
      intros j2 i2 Hj2 Hi2 He. destruct Hg as [_ Hrg]. rewrite Forall_forall in Hrg.
      rewrite Forall_forall in Hjs.
      destruct (ins_inj ds k m (fst p) i2 j j2 Hm Hj (Hjs _ Hj2) (Hrg _ Hp) Hi2 He) as [_ Ej].
      subst. contradiction.
    + intros q Hqq. rewrite Hq by (intros j2 i2 Hj2; apply Hqq; right; exact Hj2).
      apply Hw2. intros p Hp. apply Hqq; [left; reflexivity|].
      destruct Hg as [_ Hrg]. rewrite Forall_forall in Hrg. apply Hrg. exact Hp.
Qed.

Lemma mapE_emap {S A B C} (f : A -> eff S B) (g : B -> C) l s :
  mapE (fun x => emap g (f x)) l s = emap (map g) (mapE f l) s.
Proof.
  revert s. induction l as [|x l IH]; intros s; [reflexivity|]. cbn [mapE]. unfold emap, ebind, eret in *.
  destruct (f x s) as [[y| |] s1]; try reflexivity. rewrite IH.
  destruct (mapE f l s1) as [[ys| |] s2]; reflexivity.
Qed.

Lemma lines_rows {S A} set ds k m lidx (compute : list Z -> eff S (list (Z * A)))
    (rowf : list Z -> eff S (list A)) (enc : list A -> list (Z * A)) res s :
  set_ok set -> ds <> [] -> Forall (fun d => 0 <= d) ds -> znth ds k = Some m ->
  Forall (fun d => 0 <= d) lidx -> all_idx lidx = map (ins k 0) (all_idx (del k ds)) ->
  (forall j t, inb (del k ds) j -> compute (ins k 0 j) t = emap enc (rowf j) t) ->
  (forall j t row t', inb (del k ds) j -> rowf j t = (Ok row, t') -> zlen row = m) ->
  (forall row, zlen row = m -> good_writes m (enc row) /\ forall i x, znth row i = Some x -> In (i, x) (enc row)) ->
  zlen res = size ds ->
  match mapE rowf (all_idx (del k ds)) s with
  | (Ok rows, s') => exists res',
      lines_loop (Z.to_nat (size lidx)) (zerosZ (length lidx)) lidx set (strides ds) k compute res s = (Ok res', s') /\
      rows_at ds k (all_idx (del k ds)) rows (mkArr ds res')
  | (Err, s') => lines_loop (Z.to_nat (size lidx)) (zerosZ (length lidx)) lidx set (strides ds) k compute res s = (Err, s')
  | (Panic, s') => lines_loop (Z.to_nat (size lidx)) (zerosZ (length lidx)) lidx set (strides ds) k compute res s = (Panic, s')
  end.
Proof.
  intros Hset Hne Hnn Hm Hln Hidx Hcomp Hlen Henc Hres.
  rewrite lines_loop_all by exact Hln. rewrite Hidx.
  pose proof (znth_some_range _ _ _ Hm) as Hk.
  assert (Hdn : Forall (fun d => 0 <= d) (del k ds)).
  { unfold del. apply Forall_app. split; rewrite Forall_forall in *; intros x Hx; apply Hnn.
    - rewrite <- (firstn_skipn (Z.to_nat k) ds). apply in_or_app. left. exact Hx.
    - rewrite <- (firstn_skipn (Z.to_nat k + 1) ds). apply in_or_app. right. exact Hx. }
  assert (Hjs : Forall (inb (del k ds)) (all_idx (del k ds))).
  { apply Forall_forall. intros j Hj. apply In_all_idx. exact Hj. }
  assert (Hgood : forall j t ps t', In j (all_idx (del k ds)) -> compute (ins k 0 j) t = (Ok ps, t') -> good_writes m ps).
  { intros j t ps t' Hj He. apply In_all_idx in Hj. rewrite Hcomp in He by exact Hj. unfold emap, ebind, eret in He.
    destruct (rowf j t) as [[row| |] t1] eqn:Er; try discriminate. inversion He; subst.
    apply Henc. eapply Hlen; eassumption. }
  pose proof (lines_list_spec set ds k m compute Hset Hm _ (NoDup_all_idx _ Hdn) Hjs Hgood res s Hres) as HL.
  rewrite (mapE_ext _ (fun j => emap enc (rowf j))) in HL
    by (intros j t Hj; apply Hcomp; apply In_all_idx; exact Hj).
  rewrite mapE_emap in HL. unfold emap, ebind, eret in HL.
  destruct (mapE rowf (all_idx (del k ds)) s) as [[rows| |] s'] eqn:Em; [|exact HL..].
  destruct HL as (res' & E & Hl & HF & _). exists res'. split; [exact E|]. split; [|split; [reflexivity|]].
  - apply wf_fill_elems; [exact Hne|exact Hnn|]. lia.
  - assert (HR : Forall2 (fun j row => zlen row = m) (all_idx (del k ds)) rows).
    { eapply mapE_Forall2; [|exact Em]. intros j t row t' Hj. apply Hlen. apply In_all_idx. exact Hj. }
    clear Em. revert rows HF HR. generalize (all_idx (del k ds)). intros js rows HF HR.
    assert (HF' : Forall2 (fun j row => forall p, In p (enc row) -> znth res' (pos ds (ins k (fst p) j)) = Some (snd p)) js rows).
    { clear HR. remember (map enc rows) as er. revert rows Heqer. induction HF as [|j er0 js0 ers Hj HF IH]; intros rows Heq.
      - destruct rows; [constructor|discriminate].
      - destruct rows as [|row rows]; [discriminate|]. cbn [map] in Heq. inversion Heq; subst. constructor; [exact Hj|].
        apply IH. reflexivity. }
    clear HF. induction HF' as [|j row js rows Hj HF IH]; [constructor|].
    inversion HR as [|? ? ? ? Hr HR']; subst. constructor; [|apply IH; exact HR'].
    split; [exact Hm|]. intros i Hi. destruct (znth_in_range row i Hi) as (x & Hx). rewrite Hx.
    unfold elem. cbn [elems dims]. apply (Hj (i, x)). apply Henc; [reflexivity|exact Hx].
Qed.

(* ---- scan ---- *)
Lemma scan_prefixes {S A} (f : A -> A -> eff S A) l s : l <> [] ->
  scan f l s = mapE (fold1 f) (prefixes l) s.
Proof.
  intros Hl. destruct l as [|x l]; [congruence|]. unfold scan, prefixes. rewrite !zlen_cons.
  pose proof (zlen_nonneg l) as Hz. rewrite (zseq_cons (1 + zlen l)) by lia. cbn [map mapE].
  change (Z.to_nat (0 + 1)) with 1%nat. cbn [firstn fold1]. unfold ebind at 2. unfold eret at 2.
  replace (1 + zlen l - 1) with (zlen l) by lia.
  apply ebind_ext; [|reflexivity]. rewrite !map_map. rewrite mapE_map.
  apply mapE_ext. intros i t Hi. rewrite reduce_fold1. f_equal. f_equal. f_equal. lia.
Qed.
Lemma zlen_prefixes {A} (l : list A) : zlen (prefixes l) = zlen l.
Proof. unfold prefixes. rewrite zlen_map, zlen_zseq. pose proof (zlen_nonneg l). lia. Qed.

Lemma enum_good {A} (row : list A) m : zlen row = m ->
  good_writes m (enum row) /\ forall i x, znth row i = Some x -> In (i, x) (enum row).
Proof.
  intros Hm. pose proof (zlen_nonneg row) as Hz. unfold enum. rewrite Hm.
  assert (Hlen : length (zseq m) = length row).
  { pose proof (zlen_zseq m) as H. unfold zlen in H, Hm. lia. }
  assert (Hfst : map fst (combine (zseq m) row) = zseq m).
  { clear Hm. revert Hlen. generalize (zseq m). intros zs. revert row Hz. induction zs as [|z zs IH]; intros row Hz Hl; [reflexivity|].
    destruct row as [|x row]; [discriminate|]. cbn [combine map fst]. f_equal. apply IH; [apply zlen_nonneg|]. cbn [length] in Hl. lia. }
  split; [split|].
  - rewrite Hfst. apply NoDup_zseq.
  - apply Forall_forall. intros p Hp. apply In_zseq. rewrite <- Hfst. apply in_map. exact Hp.
  - intros i x Hx. pose proof (znth_some_range _ _ _ Hx) as Hi.
    apply (znth_In _ i). apply znth_combine; [apply znth_zseq; lia|exact Hx].
Qed.

Lemma zlen_zupd_length {A} (l : list A) k v : length (zupd l k v) = length l.
Proof. pose proof (zlen_zupd l k v) as H. unfold zlen in H. lia. Qed.

Lemma scanfunc_vector {S A} (z : A) (f : A -> A -> eff S A) (l : list A) axis s :
  l <> [] -> axis = -1 \/ axis = 0 ->
  scanfunc z f (Arr (vec l)) axis s =
  (let! r := mapE (fold1 f) (prefixes l) in eret (Arr (vec r))) s.
Proof.
  intros Hl Hax. unfold scanfunc. cbn [dims vec]. change (zlen [zlen l]) with 1. cbn [Z.eqb].
  replace (if axis <? 0 then 1 + axis else axis) with 0 by (destruct Hax; subst; reflexivity).
  cbn [Z.ltb Z.compare Z.leb orb]. change (zat [zlen l] 0) with (Ok (zlen l)). cbn [Pos.eqb].
  unfold elift. unfold ebind at 1. unfold ebind at 1. rewrite mapM_At_vec.
  unfold ebind. rewrite scan_prefixes by exact Hl.
  destruct (mapE (fold1 f) (prefixes l) s) as [[r| |] s']; reflexivity.
Qed.

Lemma scanfunc_axis {S A} (z : A) (f : A -> A -> eff S A) (a : arr A) axis k n s :
  wf a -> 2 <= zlen (dims a) -> k = norm_axis (zlen (dims a)) axis -> znth (dims a) k = Some n -> 1 <= n ->
  match mapE (fun j => mapE (fold1 f) (prefixes (line a k n j))) (all_idx (del k (dims a))) s with
  | (Ok rows, s') => exists r, scanfunc z f (Arr a) axis s = (Ok (Arr r), s') /\
      rows_at (dims a) k (all_idx (del k (dims a))) rows r
  | (Err, s') => scanfunc z f (Arr a) axis s = (Err, s')
  | (Panic, s') => scanfunc z f (Arr a) axis s = (Panic, s')
  end.
Proof.
  intros Hw Hr Hk Hn Hn1. pose proof (znth_some_range _ _ _ Hn) as Hkr.
  pose proof (wf_nonneg _ Hw) as Hnn. pose proof (wf_dims_ne _ Hw) as Hne.
  pose proof (size_nonneg _ Hnn) as Hs.
  set (compute := fun idx =>
           let! vec := elift (read_line a (strides (dims a)) idx k n) in
           let! vals := scan f vec in eret (enum vals)).
  assert (Hrow : forall j t row t', inb (del k (dims a)) j ->
    mapE (fold1 f) (prefixes (line a k n j)) t = (Ok row, t') -> zlen row = n).
  { intros j t row t' Hj H. rewrite (mapE_zlen _ _ _ _ _ H), zlen_prefixes. apply (line_ok a k n j Hw Hn Hj). }
  assert (Hcomp : forall j t, inb (del k (dims a)) j ->
    compute (ins k 0 j) t = emap enum (mapE (fold1 f) (prefixes (line a k n j))) t).
  { intros j t Hj. unfold compute, elift. unfold ebind at 1.
    rewrite (read_line_ok a k n 0 j Hw Hn Hj). unfold emap. apply ebind_ext; [|reflexivity].
    apply scan_prefixes. destruct (line_ok a k n j Hw Hn Hj) as [L1 _]. intros E. rewrite E in L1. zln. lia. }
  assert (E : scanfunc z f (Arr a) axis s =
    (let! l := lines_loop (Z.to_nat (size (zupd (dims a) k 1))) (zerosZ (length (zupd (dims a) k 1))) (zupd (dims a) k 1)
                 setP (strides (dims a)) k compute (repeat z (Z.to_nat (size (dims a)))) in
     eret (Arr (mkArr (dims a) l))) s).
  { unfold scanfunc. replace (zlen (dims a) =? 0) with false by lia.
    rewrite norm_axis_eq, <- Hk. replace ((k <? 0) || (zlen (dims a) <=? k)) with false by lia.
    replace (zlen (dims a) =? 1) with false by lia. rewrite NewIdxConverter_ok by exact Hne.
    unfold elift at 1. unfold ebind at 1. unfold zat. rewrite Hn. unfold elift at 1. unfold ebind at 1.
    rewrite !Prod_size by (try exact Hne; apply zupd_ne; exact Hne). replace (size (dims a) <? 0) with false by lia.
    rewrite zlen_zupd_length. reflexivity. }
  rewrite E. clear E.
  pose proof (lines_rows setP (dims a) k n (zupd (dims a) k 1) compute
    (fun j => mapE (fold1 f) (prefixes (line a k n j))) enum (repeat z (Z.to_nat (size (dims a)))) s
    setP_ok Hne Hnn Hn) as HL.
  assert (Hl1 : Forall (fun d => 0 <= d) (zupd (dims a) k 1)) by (apply Forall_zupd; [exact Hnn|lia]).
  specialize (HL Hl1 (all_idx_line _ _ _ Hn) Hcomp Hrow (fun row Hz => enum_good row n Hz)).
  assert (Hrep : zlen (repeat z (Z.to_nat (size (dims a)))) = size (dims a)) by (rewrite zlen_repeat; lia).
  specialize (HL Hrep).
  destruct (mapE _ (all_idx (del k (dims a))) s) as [[rows| |] s'].
  - destruct HL as (res' & E & HR). exists (mkArr (dims a) res'). unfold ebind. rewrite E. split; [reflexivity|exact HR].
  - unfold ebind. rewrite HL. reflexivity.
  - unfold ebind. rewrite HL. reflexivity.
Qed.
