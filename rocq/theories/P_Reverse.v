(* P_Reverse.v -- reverse and rotate. *)
From Verif Require Import Base M_Array S_Array S_Structural P_Array M_Structural.

Lemma NewIdxConverter_ok ds : ds <> [] -> NewIdxConverter ds = Ok (strides ds).
Proof. destruct ds; [congruence|reflexivity]. Qed.

Lemma wf_dims_ne {A} (a : arr A) : wf a -> dims a <> [].
Proof. intros (H & _). exact H. Qed.
Lemma wf_nonneg {A} (a : arr A) : wf a -> Forall (fun d => 0 <= d) (dims a).
Proof. intros (_ & H & _). exact H. Qed.
Lemma wf_len {A} (a : arr A) : wf a -> zlen (elems a) = size (dims a).
Proof. intros (_ & _ & H). exact H. Qed.


Lemma reverse_ok {A} (a : arr A) axis k n :
  wf a -> k = norm_axis (zlen (dims a)) axis -> znth (dims a) k = Some n ->
  exists r, reverse (Arr a) axis = Ok (Arr r) /\ wf r /\ dims r = dims a /\
    forall idx i, inb (dims a) idx -> znth idx k = Some i ->
      elem r idx = elem a (zupd idx k (n - 1 - i)).
Proof.
  intros Hwf Hk Hn. unfold reverse. cbn [asArr].
  fold (norm_axis (zlen (dims a)) axis). rewrite <- Hk.
  pose proof (znth_some_range _ _ _ Hn) as Hr.
  replace ((k <? 0) || (zlen (dims a) <=? k)) with false by lia.
  rewrite NewIdxConverter_ok by (apply wf_dims_ne; assumption). cbn [obind].
  destruct (fill_is_array (dims a)
    (fun dst => let* n0 := zat (dims a) k in
                let* i := zat dst k in
                At a (ic_index (strides (dims a)) (zupd dst k (n0 - i - 1))))
    (fun idx => match znth idx k with Some i => elem a (zupd idx k (n - 1 - i)) | None => None end))
    as (r & Er & Hwr & Hdr & Hel).
  - apply wf_dims_ne; assumption.
  - apply wf_nonneg; assumption.
  - intros idx Hin. destruct (inb_coord _ _ _ _ Hin Hn) as (i & Hi & Hir).
    rewrite (proj2 (zat_ok _ _ _) Hn). cbn [obind]. rewrite (proj2 (zat_ok _ _ _) Hi). cbn [obind].
    rewrite Hi. replace (n - i - 1) with (n - 1 - i) by lia.
    assert (Hin' : inb (dims a) (zupd idx k (n - 1 - i))) by (eapply inb_upd_same; [eassumption|eassumption|lia]).
    destruct (elem_some a _ Hwf Hin') as (x & Hx). exists x. split; [|exact Hx].
    apply At_elem; assumption.
  - rewrite Er. cbn [omap]. exists r. split; [reflexivity|]. split; [exact Hwr|]. split; [exact Hdr|].
    intros idx i Hin Hi. rewrite Hel by assumption. rewrite Hi. reflexivity.
Qed.

Lemma reverse_twice {A} (a : arr A) axis r :
  wf a -> reverse (Arr a) axis = Ok (Arr r) -> reverse (Arr r) axis = Ok (Arr a).
Proof.
  intros Hwf H. set (k := norm_axis (zlen (dims a)) axis).
  destruct (znth (dims a) k) as [n|] eqn:Hn.
  2:{ unfold reverse in H. cbn [asArr] in H. fold (norm_axis (zlen (dims a)) axis) in H. fold k in H.
      apply znth_none in Hn. replace ((k <? 0) || (zlen (dims a) <=? k)) with true in H by lia. discriminate. }
  destruct (reverse_ok a axis k n Hwf eq_refl Hn) as (r' & Er & Hwr & Hdr & Hel).
  rewrite Er in H. inversion H; subst r'. clear H.
  destruct (reverse_ok r axis k n Hwr) as (r2 & Er2 & Hwr2 & Hdr2 & Hel2).
  { rewrite Hdr. reflexivity. }
  { rewrite Hdr. exact Hn. }
  rewrite Er2. do 2 f_equal. apply arr_ext; try assumption.
  - congruence.
  - rewrite Hdr2, Hdr. intros idx Hin.
    destruct (inb_coord _ _ _ _ Hin Hn) as (i & Hi & Hir).
    rewrite (Hel2 idx i) by (rewrite ?Hdr; assumption).
    assert (Hin' : inb (dims a) (zupd idx k (n - 1 - i))) by (eapply inb_upd_same; [eassumption|eassumption|lia]).
    rewrite (Hel _ (n - 1 - i)).
    + rewrite zupd_zupd. replace (n - 1 - (n - 1 - i)) with i by lia. rewrite zupd_id by assumption. reflexivity.
    + exact Hin'.
    + apply znth_zupd_same. apply znth_some_range in Hi. exact Hi.
Qed.

Lemma reverse_axis_err {A} (R : val A) axis :
  isArray R = true -> ~ (- zlen (shapeOf R) <= axis < zlen (shapeOf R)) -> reverse R axis = Err.
Proof.
  intros HA H. destruct R as [x| |a]; [discriminate| |]; unfold reverse; cbn [asArr shapeOf dims] in *.
  - change (zlen (@nil Z)) with 0 in *. destruct (axis <? 0) eqn:E.
    + replace ((0 + axis <? 0) || (0 <=? 0 + axis)) with true by lia. reflexivity.
    + replace ((axis <? 0) || (0 <=? axis)) with true by lia. reflexivity.
  - destruct (axis <? 0) eqn:E.
    + replace ((zlen (dims a) + axis <? 0) || (zlen (dims a) <=? zlen (dims a) + axis)) with true by lia. reflexivity.
    + replace ((axis <? 0) || (zlen (dims a) <=? axis)) with true by lia. reflexivity.
Qed.

Lemma wrap64_id z : - 2 ^ 63 <= z < 2 ^ 63 -> wrap64 z = z.
Proof. intros H. unfold wrap64. rewrite Z.mod_small by lia. lia. Qed.
Lemma ReshapeUser_fits {A} (a : arr A) S : - 2 ^ 63 <= Prod S < 2 ^ 63 -> ReshapeUser a S = Reshape a S.
Proof. intros H. unfold ReshapeUser, Reshape. rewrite wrap64_id by exact H. reflexivity. Qed.

(* ---- rotate ---- *)

Lemma rot_mod i n size : - 2 ^ 63 <= i + n < 2 ^ 63 -> 0 < size -> rot i n size = (i + n) mod size.
Proof.
  intros HW H. unfold rot. rewrite wrap64_id by exact HW.
  pose proof (Z.quot_rem (i + n) size ltac:(lia)) as Hqr.
  pose proof (Z.rem_bound_abs (i + n) size ltac:(lia)) as Hb.
  destruct (Z.rem (i + n) size <? 0) eqn:E.
  - apply (Z.mod_unique_pos _ _ (Z.quot (i+n) size - 1)); lia.
  - apply (Z.mod_unique_pos _ _ (Z.quot (i+n) size)); lia.
Qed.

(* vector case: a list function *)
Definition rotl {A} (n : Z) (l : list A) : list A :=
  match l with
  | [] => []
  | x :: _ => map (fun i => match znth l ((i + n) mod zlen l) with Some y => y | None => x end) (zseq (zlen l))
  end.

Lemma zlen_rotl {A} n (l : list A) : zlen (rotl n l) = zlen l.
Proof.
  destruct l as [|x r]; [reflexivity|]. unfold rotl. rewrite zlen_map, zlen_zseq.
  pose proof (zlen_nonneg (x :: r)). lia.
Qed.

Lemma znth_rotl {A} n (l : list A) i :
  0 <= i < zlen l -> znth (rotl n l) i = znth l ((i + n) mod zlen l).
Proof.
  intros H. destruct l as [|x r]; [unfold zlen in H; simpl in H; lia|]. unfold rotl.
  rewrite znth_map, znth_zseq by lia. cbn [option_map].
  destruct (znth_in_range (x :: r) ((i + n) mod zlen (x :: r))) as (y & Hy).
  - apply Z.mod_pos_bound. lia.
  - rewrite Hy. reflexivity.
Qed.

Lemma rotate_vec {A} (n : Z) (l : list A) axis :
  - 2 ^ 63 <= n -> n + zlen l <= 2 ^ 63 ->
  rotate (vec [n]) (Arr (vec l)) axis = Ok (Arr (vec (rotl n l))).
Proof.
  intros HW1 HW2. unfold rotate, vec. cbn [asArr dims elems]. change (zlen [zlen l] =? 1) with true. cbn iota.
  change (zlen [n]) with 1. cbn iota. change (At (mkArr [1] [n]) 0) with (Ok n). cbn [obind].
  change (zat [zlen l] 0) with (Ok (zlen l)). cbn [obind].
  pose proof (zlen_nonneg l) as Hl. replace (zlen l <? 0) with false by lia.
  rewrite zlen_rotl.
  destruct l as [|x r].
  - reflexivity.
  - set (l := x :: r) in *.
    rewrite (mapM_ok_map _ (fun i => match znth l ((i + n) mod zlen l) with Some y => y | None => x end)).
    + reflexivity.
    + intros i Hi. apply In_zseq in Hi. rewrite rot_mod by lia.
      destruct (znth_in_range l ((i + n) mod zlen l)) as (y & Hy).
      * apply Z.mod_pos_bound. lia.
      * rewrite Hy. apply zat_ok. exact Hy.
Qed.

Lemma rotl_rotl {A} n m (l : list A) : rotl m (rotl n l) = rotl (n + m) l.
Proof.
  apply znth_ext; [rewrite !zlen_rotl; reflexivity|]. rewrite !zlen_rotl. intros i Hi.
  rewrite (znth_rotl m) by (rewrite zlen_rotl; assumption). rewrite zlen_rotl.
  rewrite znth_rotl by (apply Z.mod_pos_bound; lia). rewrite znth_rotl by assumption.
  f_equal. rewrite Z.add_mod_idemp_l by lia. f_equal. lia.
Qed.

Lemma rotl_multiple {A} k (l : list A) : rotl (k * zlen l) l = l.
Proof.
  apply znth_ext; [apply zlen_rotl|]. rewrite zlen_rotl. intros i Hi.
  rewrite znth_rotl by assumption. rewrite Z.mod_add by lia. rewrite Z.mod_small by lia. reflexivity.
Qed.

(* higher rank, conforming L *)

Lemma zlen_del {A} k (l : list A) : 0 <= k < zlen l -> zlen (del k l) = zlen l - 1.
Proof.
  intros H. unfold del, zlen in *. rewrite app_length, firstn_length, skipn_length. lia.
Qed.

Lemma znth_del {A} k (l : list A) i : 0 <= k < zlen l -> 0 <= i ->
  znth (del k l) i = znth l (if i <? k then i else i + 1).
Proof.
  intros Hk Hi. unfold del.
  assert (Hf : zlen (firstn (Z.to_nat k) l) = k).
  { unfold zlen in *. rewrite firstn_length. lia. }
  destruct (i <? k) eqn:E.
  - rewrite znth_app_l by lia. apply znth_firstn. lia.
  - rewrite znth_app_r by lia. rewrite Hf. rewrite znth_skipn by lia. f_equal. lia.
Qed.

Lemma inb_del ds idx k : inb ds idx -> 0 <= k < zlen ds -> inb (del k ds) (del k idx).
Proof.
  intros Hin Hk. pose proof (inb_zlen _ _ Hin) as Hz.
  apply inb_znth; [rewrite !zlen_del by lia; lia|].
  intros j d i Hd Hi. pose proof (znth_some_range _ _ _ Hd) as Hr.
  rewrite znth_del in Hd by lia. rewrite znth_del in Hi by lia.
  eapply (Forall2_znth _ _ _ Hin); eassumption.
Qed.

Lemma rot_conform_spec shape lshape axis i :
  0 <= axis < zlen shape -> 0 <= i -> i + zlen lshape = zlen shape - 1 ->
  rot_conform shape lshape axis i = Ok true <->
  (forall j l, znth lshape j = Some l -> znth (del axis shape) (i + j) = Some l).
Proof.
  intros Ha. revert i. induction lshape as [|l ls IH]; intros i Hi Hlen; cbn [rot_conform].
  - split; [|reflexivity]. intros _ j l Hj. apply znth_some_range in Hj. unfold zlen in Hj; simpl in Hj; lia.
  - rewrite zlen_cons in Hlen. pose proof (zlen_nonneg ls).
    destruct (znth_in_range shape (if axis <=? i then i + 1 else i)) as (s & Hs).
    { destruct (axis <=? i) eqn:E; lia. }
    rewrite (proj2 (zat_ok _ _ _) Hs). cbn [obind].
    assert (Hd : znth (del axis shape) i = Some s).
    { rewrite znth_del by lia. rewrite <- Hs. f_equal. destruct (i <? axis) eqn:E1, (axis <=? i) eqn:E2; lia. }
    destruct (s =? l) eqn:E.
    + rewrite IH by lia. assert (s = l) by lia. subst s. split.
      * intros H' j x Hj. destruct (Z.eq_dec j 0) as [->|Hj0].
        -- rewrite znth_cons_0 in Hj. replace (i + 0) with i by lia. congruence.
        -- pose proof (znth_some_range _ _ _ Hj). rewrite znth_cons_pos in Hj by lia.
           apply H' in Hj. rewrite <- Hj. f_equal. lia.
      * intros H' j x Hj. pose proof (znth_some_range _ _ _ Hj). specialize (H' (j + 1) x).
        rewrite znth_cons_pos in H' by lia. replace (j + 1 - 1) with j in H' by lia.
        specialize (H' Hj). rewrite <- H'. f_equal. lia.
    + split; [discriminate|]. intros H'. specialize (H' 0 l eq_refl). replace (i + 0) with i in H' by lia.
      rewrite Hd in H'. inversion H'. lia.
Qed.

Lemma rot_conform_del shape axis :
  0 <= axis < zlen shape -> rot_conform shape (del axis shape) axis 0 = Ok true.
Proof.
  intros H. apply rot_conform_spec; [assumption|lia|rewrite zlen_del by assumption; lia|].
  intros j l Hj. exact Hj.
Qed.

Lemma rotate_ok {A} (L : arr Z) (a : arr A) axis k n :
  wf L -> wf a -> 2 <= zlen (dims a) ->
  k = norm_axis (zlen (dims a)) axis -> znth (dims a) k = Some n ->
  dims L = del k (dims a) -> (zlen (dims L) = 1 -> zlen (dims a) = 2) ->
  Forall (fun c => - 2 ^ 63 <= c /\ c + n <= 2 ^ 63) (elems L) ->
  exists r, rotate L (Arr a) axis = Ok (Arr r) /\ wf r /\ dims r = dims a /\
    forall idx i c, inb (dims a) idx -> znth idx k = Some i -> elem L (del k idx) = Some c ->
      elem r idx = elem a (zupd idx k ((i + c) mod n)).
Proof.
  intros HL Ha Hrk Hk Hn HdL H1 HW. unfold rotate. cbn [asArr].
  replace (zlen (dims a) =? 1) with false by lia.
  fold (norm_axis (zlen (dims a)) axis). rewrite <- Hk.
  pose proof (znth_some_range _ _ _ Hn) as Hr.
  replace ((k <? 0) || (zlen (dims a) <=? k)) with false by lia.
  assert (Hdl : zlen (dims L) = zlen (dims a) - 1) by (rewrite HdL, zlen_del by assumption; lia).
  set (ext := match dims L with
              | [l0] => if 2 <? zlen (dims a) then
                          match elems L with [] => Panic | _ => Reshape L (repeat l0 (length (dims a) - 1)) end
                        else Ok L
              | _ => Ok L end).
  assert (Hext : ext = Ok L).
  { unfold ext. destruct (dims L) as [|l0 [|l1 ls]] eqn:EL; try reflexivity.
    unfold zlen in H1 at 1; cbn [length] in H1; specialize (H1 eq_refl). rewrite H1. reflexivity. }
  rewrite Hext. cbn [obind].
  replace (zlen (dims L) =? zlen (dims a) - 1) with true by lia. cbn [negb].
  assert (Hcf : rot_conform (dims a) (dims L) k 0 = Ok true) by (rewrite HdL; apply rot_conform_del; assumption).
  rewrite Hcf. cbn [obind negb].
  rewrite NewIdxConverter_ok by (apply wf_dims_ne; assumption). cbn [obind].
  rewrite NewIdxConverter_ok by (apply wf_dims_ne; assumption). cbn [obind].
  match goal with |- context [fill _ ?b] => set (body := b) end.
  destruct (fill_is_array (dims a) body
    (fun idx => match znth idx k, elem L (del k idx) with
                | Some i, Some c => elem a (zupd idx k ((i + c) mod n))
                | _, _ => None end)) as (r & Er & Hwr & Hdr & Hel).
  - apply wf_dims_ne; assumption.
  - apply wf_nonneg; assumption.
  - intros idx Hin. destruct (inb_coord _ _ _ _ Hin Hn) as (i & Hi & Hir).
    assert (HinL : inb (dims L) (del k idx)) by (rewrite HdL; apply inb_del; assumption).
    destruct (elem_some L _ HL HinL) as (c & Hc).
    unfold body. rewrite (proj2 (zat_ok _ _ _) Hn). cbn [obind].
    fold (del k idx). rewrite (At_elem L (del k idx) c HinL Hc). cbn [obind].
    rewrite (proj2 (zat_ok _ _ _) Hi). cbn [obind]. rewrite Hi, Hc.
    assert (HWc : - 2 ^ 63 <= c /\ c + n <= 2 ^ 63).
    { rewrite Forall_forall in HW. apply HW. unfold elem in Hc. apply znth_In in Hc. exact Hc. }
    rewrite rot_mod by lia.
    assert (Hin' : inb (dims a) (zupd idx k ((i + c) mod n))).
    { eapply inb_upd_same; [eassumption|eassumption|apply Z.mod_pos_bound; lia]. }
    destruct (elem_some a _ Ha Hin') as (x & Hx). exists x. split; [|exact Hx].
    apply At_elem; assumption.
  - rewrite Er. exists r. split; [reflexivity|]. split; [exact Hwr|]. split; [exact Hdr|].
    intros idx i c Hin Hi Hc. rewrite Hel by assumption. rewrite Hi, Hc. reflexivity.
Qed.
