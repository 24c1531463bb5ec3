(* P_Operators.v -- lemmas about M_Operators.v *)
From Verif Require Import Base M_Array S_Array S_Structural P_Array M_Structural
  P_Reverse P_Transpose P_Take P_Comma Eff S_Reduce P_Reduce S_Operators M_Operators.

(* ---------------- inner product ---------------- *)
Fixpoint acc_fold {S A} (f g : A -> A -> eff S A) (ps : list (A * A)) (w : A) : eff S A :=
  match ps with
  | [] => eret w
  | (x, y) :: r => let! u := g x y in let! w' := f u w in acc_fold f g r w'
  end.
Lemma acc_fold_app {S A} (f g : A -> A -> eff S A) l1 l2 w s :
  acc_fold f g (l1 ++ l2) w s = (let! v := acc_fold f g l1 w in acc_fold f g l2 v) s.
Proof.
  revert w s. induction l1 as [|[x y] r IH]; intros w s; [reflexivity|]. cbn [acc_fold app].
  rewrite ebind_assoc. apply ebind_ext; [reflexivity|]. intros u t. rewrite ebind_assoc.
  apply ebind_ext; [reflexivity|]. intros u' t'. apply IH.
Qed.
Lemma inner_fold_acc {S A} (f g : A -> A -> eff S A) l x y s :
  inner_fold f g (l ++ [(x, y)]) s = (let! v := g x y in acc_fold f g (rev l) v) s.
Proof.
  revert s. induction l as [|[a b] r IH]; intros s.
  - cbn. rewrite ebind_ret_r. reflexivity.
  - cbn [app rev]. destruct (r ++ [(x, y)]) eqn:E; [destruct r; discriminate|]. rewrite <- E in *.
    assert (E2 : inner_fold f g ((a, b) :: r ++ [(x, y)]) s =
      (let! v := inner_fold f g (r ++ [(x, y)]) in let! u := g a b in f u v) s).
    { rewrite E. reflexivity. }
    rewrite E2. clear E2. unfold ebind at 1. rewrite IH. clear IH.
    unfold ebind at 1 3. destruct (g x y s) as [[v| |] s1]; try reflexivity.
    rewrite acc_fold_app. unfold ebind at 2. destruct (acc_fold f g (rev r) v s1) as [[w| |] s2]; try reflexivity.
    cbn [acc_fold]. apply ebind_ext; [reflexivity|]. intros u t. rewrite ebind_ret_r. reflexivity.
Qed.
Lemma inner_loop_acc {S A} (f g : A -> A -> eff S A) getl getr ps w s :
  (forall i x y, znth ps i = Some (x, y) -> getl i = Ok x /\ getr i = Ok y) ->
  inner_loop f g getl getr (length ps) (Some w) s = acc_fold f g (rev ps) w s.
Proof.
  revert w s. induction ps as [|[x y] ps IH] using rev_ind; intros w s H; [reflexivity|].
  rewrite app_length, Nat.add_comm, rev_app_distr. cbn [length Nat.add inner_loop rev app acc_fold].
  destruct (H (Z.of_nat (length ps)) x y) as (Hl & Hr).
  { rewrite znth_app_r by (unfold zlen; lia). unfold zlen. rewrite Z.sub_diag. reflexivity. }
  unfold ebind at 1. unfold elift at 1. rewrite Hl. unfold ebind at 1. unfold elift. rewrite Hr.
  apply ebind_ext; [reflexivity|]. intros u t. apply ebind_ext; [reflexivity|]. intros u' t'.
  apply IH. intros i a b Hi. apply H. rewrite znth_app_l; [exact Hi|]. apply znth_some_range in Hi. lia.
Qed.
Lemma inner_loop_fold {S A} (f g : A -> A -> eff S A) getl getr ps n s :
  (forall i x y, znth ps i = Some (x, y) -> getl i = Ok x /\ getr i = Ok y) ->
  zlen ps = n ->
  inner_loop f g getl getr (Z.to_nat n) None s = inner_fold f g ps s.
Proof.
  intros H Hn. replace (Z.to_nat n) with (length ps) by (unfold zlen in Hn; lia). clear Hn n.
  destruct ps as [|[x y] ps _] using rev_ind; [reflexivity|].
  rewrite app_length, Nat.add_comm. cbn [length Nat.add inner_loop].
  destruct (H (Z.of_nat (length ps)) x y) as (Hl & Hr).
  { rewrite znth_app_r by (unfold zlen; lia). unfold zlen. rewrite Z.sub_diag. reflexivity. }
  unfold ebind at 1. unfold elift at 1. rewrite Hl. unfold ebind at 1. unfold elift. rewrite Hr.
  rewrite inner_fold_acc. apply ebind_ext; [reflexivity|]. intros u t. apply inner_loop_acc.
  intros i a b Hi. apply H. rewrite znth_app_l; [exact Hi|]. apply znth_some_range in Hi. lia.
Qed.


Lemma ins_last k i (j : list Z) : k = zlen j -> ins k i j = j ++ [i].
Proof.
  intros ->. unfold ins, zlen. rewrite Nat2Z.id, firstn_all, skipn_all. reflexivity.
Qed.
Lemma ins_first i (j : list Z) : ins 0 i j = i :: j.
Proof. reflexivity. Qed.

Lemma del_last (la : list Z) n : del (zlen la) (la ++ [n]) = la.
Proof.
  unfold del, zlen. rewrite Nat2Z.id, firstn_app, firstn_all, Nat.sub_diag, skipn_app.
  replace (length la + 1 - length la)%nat with 1%nat by lia.
  rewrite skipn_all2 by lia. cbn. rewrite !app_nil_r. reflexivity.
Qed.

Lemma mapE_Forall2_eq {S A B C} (f : A -> eff S C) (g : B -> eff S C) l1 l2 :
  Forall2 (fun x y => forall s, f x s = g y s) l1 l2 -> forall s, mapE f l1 s = mapE g l2 s.
Proof.
  induction 1 as [|x y l1 l2 Hxy _ IH]; intros s; [reflexivity|]. cbn [mapE].
  apply ebind_ext; [apply Hxy|]. intros a t. apply ebind_ext; [apply IH|]. reflexivity.
Qed.
Lemma Forall2_map_l {A B C} (P : B -> C -> Prop) (f : A -> B) l1 l2 :
  Forall2 (fun x y => P (f x) y) l1 l2 -> Forall2 P (map f l1) l2.
Proof. induction 1; constructor; assumption. Qed.
Lemma Forall2_list_prod {A B C D} (P : A -> B -> Prop) (Q : C -> D -> Prop) l1 l2 m1 m2 :
  Forall2 P l1 l2 -> Forall2 Q m1 m2 ->
  Forall2 (fun p q => P (fst p) (fst q) /\ Q (snd p) (snd q)) (list_prod l1 m1) (list_prod l2 m2).
Proof.
  intros HP HQ. induction HP as [|x y l1 l2 Hxy _ IH]; [constructor|]. cbn [list_prod].
  apply Forall2_app; [|exact IH]. clear IH. induction HQ; constructor; auto.
Qed.
Lemma Forall2_imp {A B} (P Q : A -> B -> Prop) l1 l2 :
  (forall x y, P x y -> Q x y) -> Forall2 P l1 l2 -> Forall2 Q l1 l2.
Proof. intros H. induction 1; constructor; auto. Qed.
Lemma all_idx_app a b :
  all_idx (a ++ b) = map (fun p => fst p ++ snd p) (list_prod (all_idx a) (all_idx b)).
Proof.
  induction a as [|d a IH].
  - cbn [app all_idx list_prod]. rewrite app_nil_r, map_map. cbn. rewrite map_id. reflexivity.
  - cbn [app all_idx]. rewrite IH. generalize (zseq d). intros zs.
    induction zs as [|i zs IHz]; [reflexivity|]. cbn [flat_map]. rewrite IHz. clear IHz.
    assert (E : forall (l1 l2 : list (list Z)) (m : list (list Z)), list_prod (l1 ++ l2) m = list_prod l1 m ++ list_prod l2 m).
    { intros l1 l2 m. induction l1 as [|x l1 IHl]; [reflexivity|]. cbn [app list_prod]. rewrite IHl, app_assoc. reflexivity. }
    rewrite E, map_app. f_equal.
    rewrite map_map. generalize (all_idx a). intros l. induction l as [|x l IHl]; [reflexivity|].
    cbn [map list_prod]. rewrite !map_app, !map_map, IHl. reflexivity.
Qed.
Lemma elems_all_idx {A} (a : arr A) : wf a ->
  Forall2 (fun idx x => inb (dims a) idx /\ At a (ic_index (strides (dims a)) idx) = Ok x) (all_idx (dims a)) (elems a).
Proof.
  intros Hw. destruct Hw as (Hne & Hnn & Hl). apply Forall2_from_znth.
  - rewrite zlen_all_idx by exact Hnn. lia.
  - intros i idx x Hi Hx. assert (Hin : inb (dims a) idx) by (apply In_all_idx; eapply znth_In; exact Hi).
    split; [exact Hin|]. rewrite ic_index_pos by (apply inb_length; exact Hin).
    unfold At. apply zat_ok. rewrite <- Hx. f_equal.
    pose proof (znth_all_idx _ _ Hin) as Hz.
    pose proof (NoDup_all_idx _ Hnn) as Hnd. apply znth_some_range in Hi as Hi'. apply znth_some_range in Hz as Hz'.
    unfold znth in Hi, Hz. destruct (i <? 0) eqn:E1; [lia|]. destruct (pos (dims a) idx <? 0) eqn:E2; [lia|].
    rewrite NoDup_nth_error in Hnd. specialize (Hnd (Z.to_nat (pos (dims a) idx)) (Z.to_nat i)).
    unfold zlen in *. rewrite Hi, Hz in Hnd. specialize (Hnd ltac:(lia) eq_refl). lia.
Qed.

Lemma outer_arr {S A} (g : A -> A -> eff S A) (L R : arr A) s : wf L -> wf R ->
  outer g (Arr L) (Arr R) s =
  (let! l := mapE (fun p => g (fst p) (snd p)) (list_prod (elems L) (elems R)) in
   eret (Arr (mkArr (dims L ++ dims R) l))) s.
Proof.
  intros HL HR. pose proof (elems_all_idx L HL) as FL. pose proof (elems_all_idx R HR) as FR.
  destruct HL as (HLne & HLnn & HLl). destruct HR as (HRne & HRnn & HRl).
  assert (Hne : dims L ++ dims R <> []) by (destruct (dims L); [congruence|discriminate]).
  assert (Hnn : Forall (fun d => 0 <= d) (dims L ++ dims R)) by (apply Forall_app; split; assumption).
  unfold outer. cbn [asArr]. rewrite Prod_size by exact Hne. pose proof (size_nonneg _ Hnn).
  replace (size (dims L ++ dims R) <? 0) with false by lia.
  rewrite (NewIdxConverter_ok (dims L)), (NewIdxConverter_ok (dims R)) by assumption.
  unfold ebind at 1, elift at 1. unfold ebind at 1, elift at 1. unfold ebind at 1.
  rewrite fillE_eq by assumption. unfold emap, ebind at 1.
  rewrite all_idx_app, mapE_map.
  rewrite (mapE_Forall2_eq _ (fun p => g (fst p) (snd p)) _ (list_prod (elems L) (elems R))).
  - unfold ebind. destruct (mapE _ _ s) as [[l| |] s']; reflexivity.
  - pose proof (Forall2_list_prod _ _ _ _ _ _ FL FR) as F. eapply Forall2_imp; [|exact F].
    intros (i, j) (x, y) ((Hi & Hx) & (Hj & Hy)) t. cbn [fst snd] in *.
    assert (Hlen : length i = length (dims L)) by (symmetry; apply inb_length; exact Hi).
    rewrite firstn_app, skipn_app. replace (length (dims L) - length i)%nat with 0%nat by lia.
    rewrite firstn_all2 by lia. rewrite skipn_all2 by lia. cbn [firstn skipn app]. rewrite app_nil_r.
    unfold ebind, elift. rewrite Hx, Hy. reflexivity.
Qed.

Lemma zseq_all_idx ds : Forall (fun d => 0 <= d) ds -> zseq (size ds) = map (pos ds) (all_idx ds).
Proof.
  intros Hnn. apply znth_ext.
  - rewrite zlen_map, zlen_zseq, zlen_all_idx by exact Hnn. pose proof (size_nonneg _ Hnn). lia.
  - intros i Hi. rewrite zlen_zseq in Hi. pose proof (size_nonneg _ Hnn). rewrite znth_zseq by lia.
    destruct (ic_indexes_spec ds i Hnn ltac:(lia)) as (idx & _ & Hin & Hp).
    rewrite znth_map. rewrite <- Hp at 2. rewrite znth_all_idx by exact Hin. cbn. congruence.
Qed.

Lemma line_At {A} (a : arr A) k n j i x : wf a -> znth (dims a) k = Some n -> inb (del k (dims a)) j ->
  znth (line a k n j) i = Some x -> At a (ic_index (strides (dims a)) (ins k i j)) = Ok x.
Proof.
  intros Hw Hn Hj Hi. destruct (line_ok a k n j Hw Hn Hj) as (Hl & He).
  pose proof (znth_some_range _ _ _ Hi) as Hr. rewrite Hl in Hr. rewrite He in Hi by exact Hr.
  apply At_elem; [|exact Hi]. eapply inb_ins; eassumption.
Qed.

Lemma zlen_combine {A B} (l1 : list A) (l2 : list B) : zlen l1 = zlen l2 -> zlen (combine l1 l2) = zlen l1.
Proof. unfold zlen. rewrite combine_length. lia. Qed.

Lemma inner_arr_go {S A} (f g : A -> A -> eff S A) (L R : arr A) la rb n s :
  wf L -> wf R -> dims L = la ++ [n] -> dims R = n :: rb -> la ++ rb <> [] ->
  inner f g (Arr L) (Arr R) s =
  (let! l := mapE (fun p => inner_fold f g (combine (line L (zlen la) n (fst p)) (line R 0 n (snd p))))
               (list_prod (all_idx la) (all_idx rb)) in
   eret (Arr (mkArr (la ++ rb) l))) s.
Proof.
  intros HL HR EL ER Hne.
  assert (Hnl : znth (dims L) (zlen la) = Some n).
  { rewrite EL, znth_app_r by lia. rewrite Z.sub_diag. reflexivity. }
  assert (Hnr : znth (dims R) 0 = Some n) by (rewrite ER; reflexivity).
  assert (Hdl : del (zlen la) (dims L) = la) by (rewrite EL; apply del_last).
  assert (Hdr : del 0 (dims R) = rb) by (rewrite ER; reflexivity).
  pose proof HL as (HLne & HLnn & HLl). pose proof HR as (HRne & HRnn & HRl).
  assert (Hnn : Forall (fun d => 0 <= d) (la ++ rb)).
  { apply Forall_app. split; [rewrite EL in HLnn; apply Forall_app in HLnn; tauto|].
    rewrite ER in HRnn. inversion HRnn; assumption. }
  unfold inner. unfold ebind at 1. unfold eret at 1. cbn [asArr].
  assert (Hll : zlen (dims L) = zlen la + 1) by (rewrite EL; zla; lia).
  assert (Hlr : zlen (dims R) = 1 + zlen rb) by (rewrite ER; zla; lia).
  pose proof (zlen_nonneg la). pose proof (zlen_nonneg rb).
  replace ((zlen (dims L) =? 0) || (zlen (dims R) =? 0)) with false by lia.
  replace (zlen (dims L) - 1) with (zlen la) by lia.
  unfold ebind at 1, elift at 1. unfold zat at 1. rewrite Hnl.
  unfold ebind at 1, elift at 1. unfold zat at 1. rewrite Hnr.
  rewrite Z.eqb_refl. cbn [negb].
  assert (Hvec : (zlen (dims L) =? 1) && (zlen (dims R) =? 1) = false).
  { destruct la as [|a0 la']; [|revert Hll; zla; pose proof (zlen_nonneg la'); lia].
    destruct rb as [|b0 rb']; [exfalso; apply Hne; reflexivity|]. revert Hlr; zla; pose proof (zlen_nonneg rb'); lia. }
  rewrite Hvec.
  assert (Hsh : firstn (length (dims L) - 1) (dims L) ++ skipn 1 (dims R) = la ++ rb).
  { rewrite EL, ER, app_length. cbn [length skipn]. replace (length la + 1 - 1)%nat with (length la) by lia.
    rewrite firstn_app, firstn_all, Nat.sub_diag. cbn [firstn]. rewrite app_nil_r. reflexivity. }
  rewrite Hsh. rewrite Prod_size by exact Hne. pose proof (size_nonneg _ Hnn).
  replace (size (la ++ rb) <? 0) with false by lia.
  rewrite (NewIdxConverter_ok (la ++ rb)), (NewIdxConverter_ok (dims L)), (NewIdxConverter_ok (dims R)) by assumption.
  do 3 (unfold ebind at 1, elift at 1).
  apply ebind_ext; [|reflexivity].
  rewrite zseq_all_idx by exact Hnn. rewrite mapE_map, all_idx_app, mapE_map.
  apply mapE_ext. intros (i, j) t Hin. cbn [fst snd].
  apply in_prod_iff in Hin. destruct Hin as (Hi & Hj). apply In_all_idx in Hi. apply In_all_idx in Hj.
  assert (Hij : inb (la ++ rb) (i ++ j)) by (apply Forall2_app; assumption).
  unfold ebind at 1, elift at 1.
  rewrite ic_indexes_index by exact Hij.
  assert (Hlen : length i = length la) by (symmetry; apply inb_length; exact Hi).
  replace (length (dims L) - 1)%nat with (length i) by (rewrite EL, app_length; cbn [length]; lia).
  rewrite firstn_app, firstn_all, skipn_app, skipn_all, Nat.sub_diag. cbn [firstn skipn app]. rewrite app_nil_r.
  rewrite <- Hdl in Hi. rewrite <- Hdr in Hj.
  destruct (line_ok L (zlen la) n i HL Hnl Hi) as (HlL & _).
  destruct (line_ok R 0 n j HR Hnr Hj) as (HlR & _).
  apply inner_loop_fold.
  - intros k x y Hk. apply znth_combine_inv in Hk. destruct Hk as (Hx & Hy). split.
    + rewrite <- (ins_last (zlen la) k i) by (unfold zlen; lia). eapply line_At; eassumption.
    + rewrite <- (ins_first k j). eapply line_At; eassumption.
  - rewrite zlen_combine by lia. exact HlL.
Qed.

Lemma inner_vec_go {S A} (f g : A -> A -> eff S A) (l r : list A) s : zlen l = zlen r ->
  inner f g (Arr (vec l)) (Arr (vec r)) s = emap Scal (inner_fold f g (combine l r)) s.
Proof.
  intros H. unfold inner. unfold ebind at 1, eret at 1. cbn [asArr vec dims].
  change (zlen [zlen l]) with 1. change (zlen [zlen r]) with 1. cbn [Z.eqb orb andb Z.sub].
  change (zat [zlen l] 0) with (Ok (zlen l)). change (zat [zlen r] 0) with (Ok (zlen r)).
  do 2 (unfold ebind at 1, elift at 1).
  change (zat [zlen l] (1 - 1)) with (Ok (zlen l)). cbv iota beta.
  rewrite H, Z.eqb_refl. cbn [negb andb Pos.eqb]. unfold emap. apply ebind_ext; [|reflexivity].
  apply inner_loop_fold; [|rewrite zlen_combine; lia].
  intros k x y Hk. apply znth_combine_inv in Hk. destruct Hk as (Hx & Hy).
  split; apply zat_ok; assumption.
Qed.

Lemma inner_mismatch {S A} (f g : A -> A -> eff S A) (L R : arr A) la n m rb s :
  dims L = la ++ [n] -> dims R = m :: rb -> n <> m -> inner f g (Arr L) (Arr R) s = (Err, s).
Proof.
  intros EL ER Hne. unfold inner. unfold ebind at 1, eret at 1. cbn [asArr]. rewrite EL, ER.
  assert (H1 : zlen (la ++ [n]) = zlen la + 1) by (zla; lia).
  pose proof (zlen_nonneg la). pose proof (zlen_nonneg rb).
  replace ((zlen (la ++ [n]) =? 0) || (zlen (m :: rb) =? 0)) with false by (rewrite H1; zla; lia).
  unfold ebind at 1, elift at 1. unfold zat at 1. rewrite znth_app_r by lia.
  replace (zlen (la ++ [n]) - 1 - zlen la) with 0 by lia. cbn [znth Z.ltb Z.compare Z.to_nat nth_error].
  unfold ebind at 1, elift at 1. change (zat (m :: rb) 0) with (Ok m). cbv iota beta.
  replace (n =? m) with false by lia. reflexivity.
Qed.
Lemma inner_scalar_left {S A} (f g : A -> A -> eff S A) x (R : arr A) r0 rs s : dims R = r0 :: rs -> 0 < r0 ->
  inner f g (Scal x) (Arr R) s = inner f g (Arr (vec (repeat x (Z.to_nat r0)))) (Arr R) s.
Proof.
  intros ER Hr. unfold inner at 1. cbn [shapeOf]. rewrite ER. replace (r0 =? 0) with false by lia.
  replace (r0 <? 0) with false by lia. reflexivity.
Qed.
Lemma inner_scalar_right {S A} (f g : A -> A -> eff S A) y (L : arr A) la n s : dims L = la ++ [n] ->
  Forall (fun d => 0 < d) (dims L) ->
  inner f g (Arr L) (Scal y) s = inner f g (Arr L) (Arr (vec (repeat y (Z.to_nat n)))) s.
Proof.
  intros EL Hp. unfold inner at 1. cbn [shapeOf].
  assert (Hz : zat (dims L) (zlen (dims L) - 1) = Ok n).
  { apply zat_ok. rewrite EL. zla. rewrite znth_app_r by lia. replace (zlen la + (1 + 0) - 1 - zlen la) with 0 by lia. reflexivity. }
  assert (Hn : 0 < n) by (rewrite EL in Hp; apply Forall_app in Hp; destruct Hp as (_ & Hp); inversion Hp; assumption).
  destruct (dims L) as [|l0 lr] eqn:E; [destruct la; discriminate|]. rewrite <- E in *.
  assert (0 < l0) by (rewrite E in Hp; inversion Hp; assumption).
  replace (l0 =? 0) with false by lia. unfold ebind at 1. unfold ebind at 1, elift at 1. rewrite Hz.
  replace (n <? 0) with false by lia. reflexivity.
Qed.

(* ---------------- each ---------------- *)
Lemma mapE_zseq_At {S A B} (f : A -> eff S B) (l : list A) s :
  mapE (fun i => let! x := elift (zat l i) in f x) (zseq (zlen l)) s = mapE f l s.
Proof.
  apply mapE_Forall2_eq. apply Forall2_from_znth; [rewrite zlen_zseq; pose proof (zlen_nonneg l); lia|].
  intros i x y Hx Hy t. pose proof (znth_some_range _ _ _ Hy). rewrite znth_zseq in Hx by lia. injection Hx as <-.
  unfold ebind, elift. unfold zat. rewrite Hy. reflexivity.
Qed.
Lemma each1_arr {S A} (f : A -> eff S (val A)) (a : arr A) s : wf a -> elems a <> [] ->
  each1 f (Arr a) s =
  (let! l := mapE (fun x => let! v := f x in scalar_result v) (elems a) in eret (Arr (mkArr (dims a) l))) s.
Proof.
  intros (Hne & Hnn & Hl) He. unfold each1. cbn [asArr].
  assert (0 < zlen (elems a)) by (destruct (elems a); [congruence|zla; pose proof (zlen_nonneg l); lia]).
  replace (zlen (elems a) =? 0) with false by lia. rewrite Prod_size by exact Hne. rewrite <- Hl.
  replace (zlen (elems a) <? 0) with false by lia.
  apply ebind_ext; [|reflexivity]. unfold At. apply (mapE_zseq_At (fun x => let! v := f x in scalar_result v)).
Qed.
Lemma list_eqb_eq a b : list_eqb a b = true <-> a = b.
Proof.
  revert b. induction a as [|x a IH]; intros [|y b]; cbn; try (split; congruence).
  rewrite andb_true_iff, IH, Z.eqb_eq. split; [intros (-> & ->); reflexivity|intros H; injection H as -> ->; auto].
Qed.
Lemma list_eqb_refl a : list_eqb a a = true. Proof. apply list_eqb_eq. reflexivity. Qed.
Lemma elems_pos {A} (a : arr A) : elems a <> [] -> 0 < zlen (elems a).
Proof. intros H. destruct (elems a); [congruence|]. zla. pose proof (zlen_nonneg l). lia. Qed.
Lemma each2_arr {S A} (f : A -> A -> eff S (val A)) (L R : arr A) s : wf L -> wf R -> dims L = dims R -> elems R <> [] ->
  each2 f (Arr L) (Arr R) s =
  (let! l := mapE (fun p => let! v := f (fst p) (snd p) in scalar_result v) (combine (elems L) (elems R)) in
   eret (Arr (mkArr (dims R) l))) s.
Proof.
  intros HL HR Hd He. pose proof (elems_pos R He). destruct HL as (_ & _ & HlL). destruct HR as (Hne & Hnn & HlR).
  rewrite Hd in HlL. unfold each2. unfold sizeOf. cbn [isArray elemsOf andb shapeOf].
  replace (zlen (elems R) =? 0) with false by lia. replace (zlen (elems L) =? 0) with false by lia.
  rewrite Hd, list_eqb_refl. cbn [negb]. rewrite Prod_size by exact Hne. rewrite <- HlR.
  replace (zlen (elems R) <? 0) with false by lia. apply ebind_ext; [|reflexivity].
  apply mapE_Forall2_eq. apply Forall2_from_znth; [rewrite zlen_zseq, zlen_combine by lia; lia|].
  intros i x (u, v) Hx Hy t. pose proof (znth_some_range _ _ _ Hx) as Hb. rewrite zlen_zseq in Hb.
  rewrite znth_zseq in Hx by lia. injection Hx as <-.
  apply znth_combine_inv in Hy. destruct Hy as (Hu & Hv). cbn [asArr fst snd]. unfold ebind, elift, At, zat. rewrite Hu, Hv. reflexivity.
Qed.
Lemma each2_scalar {S A} (f : A -> A -> eff S (val A)) x (R : arr A) s : wf R -> elems R <> [] ->
  each2 f (Scal x) (Arr R) s =
    (let! l := mapE (fun y => let! v := f x y in scalar_result v) (elems R) in eret (Arr (mkArr (dims R) l))) s /\
  each2 f (Arr R) (Scal x) s =
    (let! l := mapE (fun y => let! v := f y x in scalar_result v) (elems R) in eret (Arr (mkArr (dims R) l))) s.
Proof.
  intros HR He. pose proof (elems_pos R He). destruct HR as (Hne & Hnn & HlR). split; unfold each2; unfold sizeOf;
    cbn [isArray elemsOf andb shapeOf]; replace (zlen (elems R) =? 0) with false by lia;
    rewrite Prod_size by exact Hne; rewrite <- HlR;
    replace (zlen (elems R) <? 0) with false by lia; (apply ebind_ext; [|reflexivity]); unfold At.
  - apply mapE_Forall2_eq. apply Forall2_from_znth; [rewrite zlen_zseq; lia|].
    intros i q y Hx Hy t. pose proof (znth_some_range _ _ _ Hy). rewrite znth_zseq in Hx by lia. injection Hx as <-.
    unfold ebind, elift, zat. cbn [asArr]. rewrite Hy. reflexivity.
  - apply mapE_Forall2_eq. apply Forall2_from_znth; [rewrite zlen_zseq; lia|].
    intros i q y Hx Hy t. pose proof (znth_some_range _ _ _ Hy). rewrite znth_zseq in Hx by lia. injection Hx as <-.
    unfold ebind, elift, zat. cbn [asArr]. rewrite Hy. reflexivity.
Qed.
Lemma each2_shape_error {S A} (f : A -> A -> eff S (val A)) (L R : arr A) s :
  elems L <> [] -> elems R <> [] -> dims L <> dims R -> each2 f (Arr L) (Arr R) s = (Err, s).
Proof.
  intros HL HR Hd. pose proof (elems_pos L HL). pose proof (elems_pos R HR).
  unfold each2. unfold sizeOf. cbn [isArray elemsOf andb shapeOf].
  replace (zlen (elems R) =? 0) with false by lia. replace (zlen (elems L) =? 0) with false by lia.
  destruct (list_eqb (dims L) (dims R)) eqn:E; [apply list_eqb_eq in E; congruence|]. reflexivity.
Qed.
Lemma eachList2_both {S A} (f : A -> A -> eff S A) (l r : list A) s : zlen l = zlen r ->
  eachList2 f (inr l) (inr r) s = mapE (fun p => f (fst p) (snd p)) (combine l r) s.
Proof.
  intros H. unfold eachList2. rewrite H, Z.eqb_refl. cbn [negb].
  apply mapE_Forall2_eq. pose proof (zlen_nonneg r).
  apply Forall2_from_znth; [rewrite zlen_zseq, zlen_combine by lia; lia|].
  intros i x (u, v) Hx Hy t. pose proof (znth_some_range _ _ _ Hx) as Hb. rewrite zlen_zseq in Hb.
  rewrite znth_zseq in Hx by lia. injection Hx as <-.
  apply znth_combine_inv in Hy. destruct Hy as (Hu & Hv). cbn [fst snd]. unfold ebind, elift, zat. rewrite Hu, Hv. reflexivity.
Qed.

(* ---------------- power ---------------- *)
Lemma iterE_succ_l {S V} (f : V -> eff S V) n v s : iterE f (Datatypes.S n) v s = (let! w := f v in iterE f n w) s.
Proof.
  revert s. induction n as [|n IH]; intros s.
  - cbn. unfold ebind, eret. destruct (f v s) as [[w| |] s']; reflexivity.
  - change (iterE f (Datatypes.S (Datatypes.S n)) v s) with ((let! w := iterE f (Datatypes.S n) v in f w) s).
    unfold ebind at 1. rewrite IH. unfold ebind at 1 2. destruct (f v s) as [[w| |] s']; try reflexivity.
Qed.
Lemma power_for_iter {S V} (f : V -> eff S V) n v s : power_for f n v s = iterE f n v s.
Proof.
  revert v s. induction n as [|n IH]; intros v s; [reflexivity|]. rewrite iterE_succ_l. cbn [power_for].
  apply ebind_ext; [reflexivity|]. intros a t. apply IH.
Qed.
Lemma power_n_iter {S V} (f : V -> eff S V) n v s : 0 <= n -> power_n f n v s = iterE f (Z.to_nat n) v s.
Proof.
  intros H. unfold power_n. replace (n <? 0) with false by lia. destruct (n =? 0) eqn:E.
  - replace n with 0 by lia. reflexivity.
  - apply power_for_iter.
Qed.
Lemma iterE_add {S V} (f : V -> eff S V) m n v s : iterE f (m + n) v s = (let! w := iterE f n v in iterE f m w) s.
Proof.
  revert s. induction m as [|m IH]; intros s.
  - cbn [Nat.add iterE]. unfold ebind, eret. destruct (iterE f n v s) as [[w| |] s']; reflexivity.
  - cbn [Nat.add iterE]. rewrite <- ebind_assoc. unfold ebind at 1 2. rewrite IH. reflexivity.
Qed.
Lemma iter_succ_r' {V} (F : V -> V) n v : Nat.iter (Datatypes.S n) F v = Nat.iter n F (F v).
Proof. unfold Nat.iter. induction n as [|n IH]; [reflexivity|]. cbn [nat_rect] in *. rewrite <- IH. reflexivity. Qed.
Lemma power_loop_stops {S V} (f : V -> eff S V) g (toIndex : V -> option Z) (F : V -> V) (G : V -> V -> V) :
  (forall v t, f v t = (Ok (F v), t)) -> (forall v w t, g v w t = (Ok (G v w), t)) ->
  forall k todo r s, (k < todo)%nat ->
  (forall i, (i < k)%nat -> exists n, toIndex (G (Nat.iter (Datatypes.S i) F r) (Nat.iter i F r)) = Some n /\ n <> 1) ->
  toIndex (G (Nat.iter (Datatypes.S k) F r) (Nat.iter k F r)) = Some 1 ->
  power_loop f g toIndex todo r s = (Ok (Nat.iter (Datatypes.S k) F r), s).
Proof.
  intros Hf Hg k. induction k as [|k IH]; intros todo r s Hk Hno Hyes.
  - destruct todo; [lia|]. cbn [power_loop]. unfold ebind. rewrite Hf, Hg. cbn [Nat.iter nat_rect] in *. rewrite Hyes.
    reflexivity.
  - destruct todo; [lia|]. cbn [power_loop]. unfold ebind. rewrite Hf, Hg.
    destruct (Hno O ltac:(lia)) as (n & Hn & Hn1). cbn [Nat.iter nat_rect] in Hn. rewrite Hn.
    replace (n =? 1) with false by lia. rewrite (iter_succ_r' F (Datatypes.S k)). apply IH.
    + lia.
    + intros i Hi. destruct (Hno (Datatypes.S i) ltac:(lia)) as (m & Hm & Hm1). exists m. split; [|exact Hm1].
      rewrite <- Hm. rewrite <- !iter_succ_r'. reflexivity.
    + rewrite <- Hyes. rewrite <- !iter_succ_r'. reflexivity.
Qed.
Lemma power_loop_limit {S V} (f : V -> eff S V) g (toIndex : V -> option Z) (F : V -> V) (G : V -> V -> V) :
  (forall v t, f v t = (Ok (F v), t)) -> (forall v w t, g v w t = (Ok (G v w), t)) ->
  forall todo r s,
  (forall i, (i < todo)%nat -> exists n, toIndex (G (Nat.iter (Datatypes.S i) F r) (Nat.iter i F r)) = Some n /\ n <> 1) ->
  power_loop f g toIndex todo r s = (Err, s).
Proof.
  intros Hf Hg todo. induction todo as [|todo IH]; intros r s Hno; [reflexivity|].
  cbn [power_loop]. unfold ebind. rewrite Hf, Hg.
  destruct (Hno O ltac:(lia)) as (n & Hn & Hn1). cbn [Nat.iter nat_rect] in Hn. rewrite Hn.
  replace (n =? 1) with false by lia. apply IH.
  intros i Hi. destruct (Hno (Datatypes.S i) ltac:(lia)) as (m & Hm & Hm1). exists m. split; [|exact Hm1].
  rewrite <- Hm. rewrite <- !iter_succ_r'. reflexivity.
Qed.

(* ---------------- at ---------------- *)
Lemma zlen_set_true mask off n : zlen (set_true mask off n) = zlen mask.
Proof. revert mask off. induction n as [|n IH]; intros mask off; [reflexivity|]. cbn [set_true]. rewrite IH. apply zlen_zupd. Qed.
Lemma znth_set_true n : forall mask off p, 0 <= off -> off + Z.of_nat n <= zlen mask ->
  znth (set_true mask off n) p = if (off <=? p) && (p <? off + Z.of_nat n) then Some true else znth mask p.
Proof.
  induction n as [|n IH]; intros mask off p H0 H1.
  - cbn [set_true]. destruct ((off <=? p) && (p <? off + Z.of_nat 0)) eqn:E; [lia|reflexivity].
  - cbn [set_true]. rewrite IH by (rewrite ?zlen_zupd; lia).
    destruct (Z.eq_dec p off) as [->|Hp].
    + replace ((off + 1 <=? off) && (off <? off + 1 + Z.of_nat n)) with false by lia.
      rewrite znth_zupd_same by lia. replace ((off <=? off) && (off <? off + Z.of_nat (Datatypes.S n))) with true by lia. reflexivity.
    + rewrite znth_zupd_other by lia.
      replace ((off <=? p) && (p <? off + Z.of_nat (Datatypes.S n))) with ((off + 1 <=? p) && (p <? off + 1 + Z.of_nat n)) by lia.
      reflexivity.
Qed.
Lemma mask_idx_spec origin d n : 0 <= n -> forall gi mask, zlen mask = n * d ->
  Forall (fun g => 0 <= g - origin < d) gi ->
  exists m, mask_idx origin d n gi mask = Ok m /\ zlen m = zlen mask /\
    forall c i, 0 <= i < n -> 0 <= c < d ->
      znth m (c * n + i) = if existsb (Z.eqb (c + origin)) gi then Some true else znth mask (c * n + i).
Proof.
  intros Hn gi. induction gi as [|g gi IH]; intros mask Hl HF.
  - exists mask. repeat split. 
  - inversion HF; subst. cbn [mask_idx].
    replace ((g - origin <? 0) || (d <=? g - origin)) with false by lia.
    assert (Hb : n * (g - origin) + n <= zlen mask) by (rewrite Hl; nia).
    assert (Hb0 : 0 <= n * (g - origin)) by nia.
    destruct (IH (set_true mask (n * (g - origin)) (Z.to_nat n))) as (m & Em & Hm & Hz).
    { rewrite zlen_set_true. exact Hl. } { assumption. }
    exists m. split; [exact Em|]. split; [rewrite Hm; apply zlen_set_true|].
    intros c i Hi Hc. rewrite Hz by assumption. cbn [existsb].
    destruct (existsb (Z.eqb (c + origin)) gi) eqn:E; [rewrite orb_true_r; reflexivity|]. rewrite orb_false_r.
    rewrite znth_set_true by lia.
    destruct (c + origin =? g) eqn:Eg.
    + replace ((n * (g - origin) <=? c * n + i) && (c * n + i <? n * (g - origin) + Z.of_nat (Z.to_nat n))) with true by nia. reflexivity.
    + assert (Hne : c <> g - origin) by lia.
      replace ((n * (g - origin) <=? c * n + i) && (c * n + i <? n * (g - origin) + Z.of_nat (Z.to_nat n))) with false; [reflexivity|].
      symmetry. apply andb_false_iff. destruct (Z_lt_ge_dec c (g - origin)); [left|right]; nia.
Qed.
Lemma mask_idx_err origin d n gi mask : (exists g, In g gi /\ ~ 0 <= g - origin < d) -> mask_idx origin d n gi mask = Err.
Proof.
  revert mask. induction gi as [|g gi IH]; intros mask (x & Hx & Hr); [destruct Hx|]. cbn [mask_idx].
  destruct ((g - origin <? 0) || (d <=? g - origin)) eqn:E; [reflexivity|].
  destruct Hx as [->|Hx]; [lia|]. apply IH. eauto.
Qed.
(* the final loop, position by position: c counts the marks before i *)
Definition marks (m : list bool) : Z := zlen (filter (fun b => b) m).
Lemma marks_cons b m : marks (b :: m) = (if b then 1 else 0) + marks m.
Proof. unfold marks. cbn [filter]. destruct b; zla; lia. Qed.
Lemma marks_nonneg m : 0 <= marks m. Proof. apply zlen_nonneg. Qed.
Lemma zlen_masked {A} m : forall l : list A, zlen m = zlen l -> zlen (masked m l) = marks m.
Proof.
  induction m as [|b m IH]; intros [|x l] H; try reflexivity; [zln; lia|].
  rewrite marks_cons. cbn [masked]. zl. destruct b; zl; rewrite IH by lia; lia.
Qed.
Lemma znth_masked {A} m : forall (l : list A) i, zlen m = zlen l -> znth m i = Some true ->
  znth (masked m l) (marks (firstn (Z.to_nat i) m)) = znth l i.
Proof.
  induction m as [|b m IH]; intros l i H Hi.
  - unfold znth in Hi. destruct (i <? 0); [discriminate|]. destruct (Z.to_nat i); discriminate.
  - destruct l as [|x l]; [zln; lia|]. pose proof (znth_some_range _ _ _ Hi) as Hr.
    destruct (Z.eq_dec i 0) as [->|Hi0].
    + cbn in Hi. injection Hi as ->. reflexivity.
    + replace (Z.to_nat i) with (Datatypes.S (Z.to_nat (i - 1))) by lia. cbn [firstn]. rewrite marks_cons.
      rewrite znth_cons_pos in Hi by lia. rewrite znth_cons_pos by lia. zl.
      pose proof (marks_nonneg (firstn (Z.to_nat (i - 1)) m)).
      cbn [masked]. destruct b.
      * rewrite znth_cons_pos by lia. replace (1 + marks (firstn (Z.to_nat (i - 1)) m) - 1) with (marks (firstn (Z.to_nat (i - 1)) m)) by lia.
        apply IH; [lia|exact Hi].
      * rewrite Z.add_0_l. apply IH; [lia|exact Hi].
Qed.
Lemma at_merge_spec {A} m : forall (repl l : list A), zlen m = zlen l -> zlen repl = marks m ->
  exists r, at_merge m repl l = Ok r /\ zlen r = zlen l /\
    forall i, 0 <= i < zlen l ->
      znth r i = if (match znth m i with Some b => b | None => false end)
                 then znth repl (marks (firstn (Z.to_nat i) m)) else znth l i.
Proof.
  induction m as [|b m IH]; intros repl l Hl Hr.
  - destruct l; [|zln; lia]. exists []. split; [reflexivity|]. split; [reflexivity|]. intros i Hi. cbn in Hi. lia.
  - destruct l as [|x l]; [zln; lia|]. zl. rewrite marks_cons in Hr. cbn [at_merge]. destruct b.
    + destruct repl as [|y repl]; [pose proof (marks_nonneg m); zl; lia|]. zl.
      destruct (IH repl l ltac:(lia) ltac:(lia)) as (r & Er & Hrl & Hz). rewrite Er. exists (y :: r).
      split; [reflexivity|]. split; [zl; lia|]. intros i Hi.
      destruct (Z.eq_dec i 0) as [->|Hi0]; [reflexivity|].
      rewrite (znth_cons_pos y r), (znth_cons_pos true m), (znth_cons_pos x l) by lia. rewrite Hz by lia.
      replace (Z.to_nat i) with (Datatypes.S (Z.to_nat (i - 1))) by lia. cbn [firstn]. rewrite marks_cons. cbn iota.
      pose proof (marks_nonneg (firstn (Z.to_nat (i - 1)) m)). rewrite (znth_cons_pos y) by lia.
      replace (1 + marks (firstn (Z.to_nat (i - 1)) m) - 1) with (marks (firstn (Z.to_nat (i - 1)) m)) by lia. reflexivity.
    + destruct (IH repl l ltac:(lia) ltac:(lia)) as (r & Er & Hrl & Hz). rewrite Er. exists (x :: r).
      split; [reflexivity|]. split; [zl; lia|]. intros i Hi.
      destruct (Z.eq_dec i 0) as [->|Hi0]; [reflexivity|].
      rewrite (znth_cons_pos x r), (znth_cons_pos false m), (znth_cons_pos x l) by lia. rewrite Hz by lia.
      replace (Z.to_nat i) with (Datatypes.S (Z.to_nat (i - 1))) by lia. cbn [firstn]. rewrite marks_cons. cbn iota. rewrite Z.add_0_l. reflexivity.
Qed.

Lemma marks_app a b : marks (a ++ b) = marks a + marks b.
Proof. unfold marks. rewrite filter_app. zla. reflexivity. Qed.
Lemma marks_firstn_succ m p b : znth m p = Some b ->
  marks (firstn (Z.to_nat (p + 1)) m) = marks (firstn (Z.to_nat p) m) + (if b then 1 else 0).
Proof.
  intros H. pose proof (znth_some_range _ _ _ H) as Hr.
  replace (Z.to_nat (p + 1)) with (Z.to_nat p + 1)%nat by lia.
  rewrite <- (firstn_skipn (Z.to_nat p) (firstn (Z.to_nat p + 1) m)).
  rewrite firstn_firstn. replace (Nat.min (Z.to_nat p) (Z.to_nat p + 1)) with (Z.to_nat p) by lia.
  rewrite marks_app. f_equal. rewrite skipn_firstn_comm. replace (Z.to_nat p + 1 - Z.to_nat p)%nat with 1%nat by lia.
  unfold znth in H. destruct (p <? 0) eqn:E; [lia|]. rewrite (skipn_cons_nth _ _ _ H). cbn [firstn]. unfold marks. destruct b; reflexivity.
Qed.
Lemma marks_blocks m n d (mem : Z -> bool) : 0 <= n ->
  (forall c i, 0 <= i < n -> 0 <= c < d -> znth m (c * n + i) = Some (mem c)) ->
  forall c i, 0 <= c -> 0 <= i <= n -> c * n + i <= d * n -> (i = 0 \/ c < d) ->
  marks (firstn (Z.to_nat (c * n + i)) m) = n * zlen (filter mem (zseq c)) + (if mem c then i else 0).
Proof.
  intros Hn Hm c i Hc. revert c Hc i.
  assert (IN : forall c, 0 <= c < d -> forall base, marks (firstn (Z.to_nat (c * n)) m) = base ->
     forall j, (Z.of_nat j <= n) -> marks (firstn (Z.to_nat (c * n + Z.of_nat j)) m) = base + (if mem c then Z.of_nat j else 0)).
  { intros c Hc base Hbase j. induction j as [|j IH]; intros Hj.
    - rewrite Z.add_0_r, Hbase. destruct (mem c); lia.
    - replace (c * n + Z.of_nat (Datatypes.S j)) with (c * n + Z.of_nat j + 1) by lia.
      rewrite (marks_firstn_succ m _ (mem c)) by (apply Hm; lia). rewrite IH by lia. destruct (mem c); lia. }
  assert (BL : forall c, 0 <= c -> c <= d -> marks (firstn (Z.to_nat (c * n)) m) = n * zlen (filter mem (zseq c))).
  { apply (natlike_ind (fun c => c <= d -> marks (firstn (Z.to_nat (c * n)) m) = n * zlen (filter mem (zseq c)))).
    - intros _. cbn. rewrite Z.mul_0_r. reflexivity.
    - intros c Hc IH Hd. unfold Z.succ in *. specialize (IH ltac:(lia)).
      pose proof (IN c ltac:(lia) _ IH (Z.to_nat n) ltac:(lia)) as H.
      rewrite Z2Nat.id in H by lia. replace ((c + 1) * n) with (c * n + n) by lia. rewrite H.
      rewrite zseq_succ by lia. rewrite filter_app. zla. cbn [filter]. destruct (mem c); zl; zla; zl; nia. }
  intros c Hc i Hi Hle Hor.
  assert (Hcd : c <= d \/ n = 0) by (destruct (Z_le_gt_dec c d); [left; lia|right; nia]).
  destruct (Z.eq_dec n 0) as [->|Hn0].
  { replace (c * 0 + i) with 0 by lia. replace i with 0 by lia. cbn. destruct (mem c); reflexivity. }
  destruct Hcd as [Hcd|]; [|lia].
  destruct (Z.eq_dec i 0) as [->|Hi0].
  - rewrite Z.add_0_r, BL by lia. destruct (mem c); lia.
  - pose proof (IN c ltac:(lia) _ (BL c ltac:(lia) ltac:(lia)) (Z.to_nat i) ltac:(lia)) as H.
    rewrite Z2Nat.id in H by lia. exact H.
Qed.

Lemma increasing_NoDup l : increasing l -> NoDup l.
Proof.
  intros H. rewrite NoDup_nth_error. intros i j Hi E.
  destruct (nth_error l i) as [x|] eqn:Ei; [|apply nth_error_None in Ei; lia].
  assert (Zi : znth l (Z.of_nat i) = Some x) by (unfold znth; destruct (Z.of_nat i <? 0) eqn:E1; [lia|rewrite Nat2Z.id; exact Ei]).
  assert (Zj : znth l (Z.of_nat j) = Some x) by (unfold znth; destruct (Z.of_nat j <? 0) eqn:E1; [lia|rewrite Nat2Z.id; congruence]).
  destruct (lt_eq_lt_dec i j) as [[Hl|He]|Hg]; [|exact He|].
  - specialize (H (Z.of_nat i) (Z.of_nat j) x x ltac:(lia) Zi Zj). lia.
  - specialize (H (Z.of_nat j) (Z.of_nat i) x x ltac:(lia) Zj Zi). lia.
Qed.
Lemma NoDup_same_zlen {A} (l1 l2 : list A) : NoDup l1 -> NoDup l2 -> (forall x, In x l1 <-> In x l2) -> zlen l1 = zlen l2.
Proof.
  intros H1 H2 H. pose proof (NoDup_incl_length H1 (fun x Hx => proj1 (H x) Hx)).
  pose proof (NoDup_incl_length H2 (fun x Hx => proj2 (H x) Hx)). unfold zlen. lia.
Qed.
Lemma count_before origin I q g : increasing I -> Forall (fun g => 0 <= g - origin) I -> znth I q = Some g ->
  zlen (filter (fun c => existsb (Z.eqb (c + origin)) I) (zseq (g - origin))) = q.
Proof.
  intros Hinc Hpos Hq. pose proof (znth_some_range _ _ _ Hq) as Hr.
  assert (Hlen : zlen (firstn (Z.to_nat q) I) = q) by (unfold zlen in *; rewrite firstn_length; lia).
  transitivity (zlen (firstn (Z.to_nat q) I)); [|exact Hlen].
  rewrite <- (zlen_map (fun c => c + origin)).
  apply NoDup_same_zlen.
  - apply FinFun.Injective_map_NoDup; [intros x y; lia|]. apply NoDup_filter. apply NoDup_zseq.
  - rewrite <- (firstn_skipn (Z.to_nat q) I) in Hinc. apply increasing_NoDup in Hinc.
    clear - Hinc. induction (firstn (Z.to_nat q) I) as [|x l IH]; [constructor|].
    cbn [app] in Hinc. inversion Hinc; subst. constructor; [intro Hx; apply H1; apply in_or_app; left; exact Hx|apply IH; assumption].
  - intros x. rewrite in_map_iff. split.
    + intros (c & <- & Hc). apply filter_In in Hc. destruct Hc as (Hc & He). apply In_zseq in Hc.
      apply existsb_exists in He. destruct He as (y & Hy & Ey). apply Z.eqb_eq in Ey. subst y.
      apply In_znth in Hy. destruct Hy as (p & Hp). pose proof (znth_some_range _ _ _ Hp).
      assert (p < q).
      { destruct (Z_lt_ge_dec p q); [assumption|]. destruct (Z.eq_dec p q) as [->|]; [rewrite Hq in Hp; injection Hp as Hp; lia|].
        specialize (Hinc q p g (c + origin) ltac:(lia) Hq Hp). lia. }
      apply (znth_In _ p). rewrite znth_firstn by lia. exact Hp.
    + intros Hx. apply In_znth in Hx. destruct Hx as (p & Hp). pose proof (znth_some_range _ _ _ Hp) as Hpr.
      rewrite Hlen in Hpr. rewrite znth_firstn in Hp by lia.
      specialize (Hinc p q x g ltac:(lia) Hp Hq).
      assert (Hx : In x I) by (eapply znth_In; exact Hp).
      rewrite Forall_forall in Hpos. specialize (Hpos x Hx).
      exists (x - origin). split; [lia|]. apply filter_In. split; [apply In_zseq; lia|].
      apply existsb_exists. exists x. split; [exact Hx|]. lia.
Qed.
Lemma count_all origin I d : increasing I -> Forall (fun g => 0 <= g - origin < d) I ->
  zlen (filter (fun c => existsb (Z.eqb (c + origin)) I) (zseq d)) = zlen I.
Proof.
  intros Hinc Hr. rewrite <- (zlen_map (fun c => c + origin)). apply NoDup_same_zlen.
  - apply FinFun.Injective_map_NoDup; [intros x y; lia|]. apply NoDup_filter. apply NoDup_zseq.
  - apply increasing_NoDup; exact Hinc.
  - intros x. rewrite in_map_iff. rewrite Forall_forall in Hr. split.
    + intros (c & <- & Hc). apply filter_In in Hc. destruct Hc as (_ & He).
      apply existsb_exists in He. destruct He as (y & Hy & Ey). apply Z.eqb_eq in Ey. subst y. exact Hy.
    + intros Hx. specialize (Hr x Hx). exists (x - origin). split; [lia|]. apply filter_In.
      split; [apply In_zseq; lia|]. apply existsb_exists. exists x. split; [exact Hx|lia].
Qed.

Lemma overwrite_full {A} (base vals : list A) : length base = length vals -> overwrite base vals = vals.
Proof.
  intros H. unfold overwrite. rewrite firstn_all2 by lia. rewrite skipn_all2 by lia. apply app_nil_r.
Qed.


Section AT.
  Context {A : Type} (origin : Z) (I : list Z) (a : arr A) (d : Z) (ds : list Z).
  Hypothesis Hw : wf a.
  Hypothesis Hd : dims a = d :: ds.
  Hypothesis Hpos : 0 < d.
  Hypothesis Hinc : increasing I.
  Hypothesis Hrange : Forall (fun g => 0 <= g - origin < d) I.
  Let mem c := existsb (Z.eqb (c + origin)) I.
  Let m := size ds.
  Lemma at_m_nonneg : 0 <= m.
  Proof. destruct Hw as (_ & Hnn & _). rewrite Hd in Hnn. inversion Hnn; subst. apply size_nonneg. assumption. Qed.
  Lemma at_len : zlen (elems a) = d * m.
  Proof. destruct Hw as (_ & _ & Hl). rewrite Hd in Hl. exact Hl. Qed.
  Lemma at_the_mask : exists mask,
    mask_idx origin d m I (repeat false (length (elems a))) = Ok mask /\ zlen mask = zlen (elems a) /\
    forall c i, 0 <= i < m -> 0 <= c < d -> znth mask (c * m + i) = Some (mem c).
  Proof.
    pose proof at_m_nonneg. pose proof at_len.
    destruct (mask_idx_spec origin d m ltac:(lia) I (repeat false (length (elems a)))) as (mask & E & Hl & Hz).
    { zla. unfold zlen in *. lia. } { exact Hrange. }
    exists mask. split; [exact E|]. split; [rewrite Hl; zla; reflexivity|].
    intros c i Hi Hc. rewrite Hz by assumption. unfold mem. destruct (existsb _ I); [reflexivity|].
    apply znth_repeat. unfold zlen in *. nia.
  Qed.
  Context (mask : list bool).
  Hypothesis Hml : zlen mask = zlen (elems a).
  Hypothesis Hmask : forall c i, 0 <= i < m -> 0 <= c < d -> znth mask (c * m + i) = Some (mem c).
  Lemma at_marks_all : marks mask = zlen I * m.
  Proof.
    pose proof at_m_nonneg. pose proof at_len.
    pose proof (marks_blocks mask m d mem ltac:(lia) Hmask d 0 ltac:(lia) ltac:(lia) ltac:(lia) ltac:(lia)) as H1.
    rewrite firstn_all2 in H1 by (unfold zlen in *; lia). rewrite H1.
    unfold mem at 1. rewrite count_all by assumption. destruct (mem d); lia.
  Qed.
  Lemma at_marks_cell q g i : znth I q = Some g -> 0 <= i < m ->
    marks (firstn (Z.to_nat ((g - origin) * m + i)) mask) = q * m + i.
  Proof.
    intros Hq Hi. pose proof at_m_nonneg.
    assert (Hg : 0 <= g - origin < d) by (apply (proj1 (Forall_znth _ _) Hrange _ _ Hq)).
    rewrite (marks_blocks mask m d mem ltac:(lia) Hmask (g - origin) i) by nia.
    unfold mem at 1. rewrite (count_before origin I q g); [|exact Hinc| |exact Hq].
    - unfold mem. replace (existsb (Z.eqb (g - origin + origin)) I) with true; [lia|].
      symmetry. apply existsb_exists. exists g. split; [eapply znth_In; exact Hq|lia].
    - eapply Forall_impl; [|exact Hrange]. intros x Hx; cbv beta in Hx; lia.
  Qed.
  Lemma at_pos_split c rest : inb (dims a) (c :: rest) ->
    0 <= c < d /\ inb ds rest /\ 0 <= pos ds rest < m /\ pos (dims a) (c :: rest) = c * m + pos ds rest.
  Proof.
    rewrite Hd. intros H. inversion H; subst. split; [lia|]. split; [assumption|]. split; [apply pos_range; assumption|reflexivity].
  Qed.
  Lemma at_cell_inb q g rest : znth I q = Some g -> inb ds rest -> inb (dims a) (g - origin :: rest).
  Proof.
    intros Hq Hr. rewrite Hd. constructor; [|exact Hr]. apply (proj1 (Forall_znth _ _) Hrange _ _ Hq).
  Qed.
  Lemma at_selected : cells_of origin I a (mkArr (zlen I :: ds) (masked mask (elems a))).
  Proof.
    pose proof at_m_nonneg.
    assert (Hnn : Forall (fun x => 0 <= x) (zlen I :: ds)).
    { constructor; [apply zlen_nonneg|]. destruct Hw as (_ & Hnn & _). rewrite Hd in Hnn. inversion Hnn; assumption. }
    assert (Hsl : zlen (masked mask (elems a)) = zlen I * m) by (rewrite zlen_masked by exact Hml; apply at_marks_all).
    split; [|split].
    - apply wf_fill_elems; [discriminate|exact Hnn|exact Hsl].
    - cbn [dims]. rewrite Hd. reflexivity.
    - rewrite Hd. cbn [tl]. intros q g rest Hq Hr. unfold elem. cbn [dims elems].
      pose proof (at_cell_inb q g rest Hq Hr) as Hin. destruct (at_pos_split _ _ Hin) as (Hc & _ & Hp & Epos).
      rewrite Epos. cbn [pos]. fold m. rewrite <- (at_marks_cell q g (pos ds rest) Hq Hp).
      apply znth_masked; [exact Hml|]. rewrite Hmask by assumption. unfold mem. f_equal.
      apply existsb_exists. exists g. split; [eapply znth_In; exact Hq|lia].
  Qed.
  Lemma at_placed vs : zlen vs = zlen I * m ->
    exists l, at_merge mask vs (elems a) = Ok l /\ placed origin I a vs (mkArr (dims a) l).
  Proof.
    intros Hvs. destruct (at_merge_spec mask vs (elems a) Hml ltac:(rewrite at_marks_all; exact Hvs)) as (l & E & Hl & Hz).
    exists l. split; [exact E|].
    assert (Hwr : wf (mkArr (dims a) l)).
    { destruct Hw as (H1 & H2 & H3). apply wf_fill_elems; [assumption|assumption|]. rewrite Hl. exact H3. }
    assert (Hlen : forall c i, 0 <= c < d -> 0 <= i < m -> 0 <= c * m + i < zlen (elems a)) by (rewrite at_len; nia).
    split; [exact Hwr|]. split; [reflexivity|]. rewrite Hd. cbn [tl]. fold m. split.
    - intros q g rest Hq Hr. pose proof (at_cell_inb q g rest Hq Hr) as Hin.
      destruct (at_pos_split _ _ Hin) as (Hc & _ & Hp & Epos). rewrite Hd in Epos. unfold elem. cbn [dims elems].
      rewrite Epos. rewrite Hz by auto. rewrite Hmask by assumption.
      replace (mem (g - origin)) with true.
      + rewrite (at_marks_cell q g _ Hq Hp). reflexivity.
      + symmetry. apply existsb_exists. exists g. split; [eapply znth_In; exact Hq|lia].
    - intros c rest Hin Hni. rewrite <- Hd in Hin. destruct (at_pos_split _ _ Hin) as (Hc & _ & Hp & Epos).
      unfold elem. cbn [dims elems]. rewrite <- Hd. rewrite Epos. rewrite Hz by auto. rewrite Hmask by assumption.
      destruct (mem c) eqn:E1; [|reflexivity]. exfalso. apply Hni. apply existsb_exists in E1.
      destruct E1 as (y & Hy & Ey). apply Z.eqb_eq in Ey. subst y. exact Hy.
  Qed.
End AT.

Lemma at_op_index {S A} (zero : A) (toBool : A -> option bool) origin (rep : replacer S A) I (a : arr A) d ds s :
  wf a -> dims a = d :: ds -> 0 < d -> increasing I -> Forall (fun g => 0 <= g - origin < d) I ->
  exists sel, cells_of origin I a sel /\
    match (match rep with RepFn f => f sel s | RepVal w => (Ok w, s) end) with
    | (Ok v, s') =>
        (zlen (elemsOf v) = zlen I * size ds -> exists r,
           at_op zero toBool origin rep (SelIdx (vec I)) (Arr a) s = (Ok (Arr r), s') /\ placed origin I a (elemsOf v) r) /\
        (forall x, elemsOf v = [x] -> exists r,
           at_op zero toBool origin rep (SelIdx (vec I)) (Arr a) s = (Ok (Arr r), s') /\
           placed origin I a (repeat x (Z.to_nat (zlen I * size ds))) r) /\
        (zlen (elemsOf v) <> 1 -> zlen (elemsOf v) <> zlen I * size ds ->
           at_op zero toBool origin rep (SelIdx (vec I)) (Arr a) s = (Err, s'))
    | (Err, s') => at_op zero toBool origin rep (SelIdx (vec I)) (Arr a) s = (Err, s')
    | (Panic, s') => at_op zero toBool origin rep (SelIdx (vec I)) (Arr a) s = (Panic, s')
    end.
Proof.
  intros Hw Hd Hpos Hinc Hrange.
  destruct (at_the_mask origin I a d ds Hw Hd Hrange) as (mask & Emask & Hml & Hmask).
  exists (mkArr (zlen I :: ds) (masked mask (elems a))).
  split; [apply (at_selected origin I a d ds); assumption|].
  pose proof (at_m_nonneg a d ds Hw Hd) as Hmn.
  assert (Hsl : zlen (masked mask (elems a)) = zlen I * size ds).
  { rewrite zlen_masked by exact Hml. apply (at_marks_all origin I a d ds); assumption. }
  assert (EQ : at_op zero toBool origin rep (SelIdx (vec I)) (Arr a) s =
    (let! vr := match rep with RepFn f => f (mkArr (zlen I :: ds) (masked mask (elems a))) | RepVal v => eret v end in
     let re := elemsOf vr in
     let! repl := elift (match re with
       | [x] => Ok (repeat x (length (masked mask (elems a))))
       | _ => if zlen re =? zlen (masked mask (elems a)) then Ok re else Err end) in
     let! l := elift (at_merge mask repl (elems a)) in
     eret (Arr (mkArr (dims a) l))) s).
  { unfold at_op. cbn [asArr]. unfold at_mask. cbn [dims vec elems]. change (zlen [zlen I] =? 1) with true. cbn [negb].
    unfold ebind at 1. unfold ebind at 1, elift at 1. rewrite Hd. change (zat (d :: ds) 0) with (Ok d). cbv iota beta.
    replace (d =? 0) with false by lia. assert (EQm : Z.quot (zlen (elems a)) d = size ds) by (destruct Hw as (_ & _ & Hl); rewrite Hl, Hd; cbn [size]; rewrite Z.mul_comm; apply Z.quot_mul; lia).
    rewrite EQm. unfold ebind at 1, elift at 1. rewrite Emask.
    unfold ebind at 1, elift at 1. change (zat [zlen I] 0) with (Ok (zlen I)). cbv iota beta. unfold eret at 1.
    apply ebind_ext.
    - destruct rep as [f|w]; [|reflexivity]. change (zupd (d :: ds) 0 (zlen I)) with (zlen I :: ds).
      rewrite Prod_size by discriminate. cbn [size]. pose proof (zlen_nonneg I).
      replace (zlen I * size ds <? 0) with false by nia. f_equal. f_equal. apply overwrite_full.
      rewrite repeat_length. unfold zlen in *. lia.
    - intros vr t. reflexivity. }
  rewrite EQ. clear EQ.
  replace (match rep with RepFn f => f (mkArr (zlen I :: ds) (masked mask (elems a))) s | RepVal w => (Ok w, s) end)
     with ((match rep with RepFn f => f (mkArr (zlen I :: ds) (masked mask (elems a))) | RepVal v => eret v end) s)
     by (destruct rep; reflexivity).
  destruct ((match rep with RepFn f => f (mkArr (zlen I :: ds) (masked mask (elems a))) | RepVal v => eret v end) s) as [[v| |] s'] eqn:Ev;
    [|unfold ebind at 1; rewrite Ev; reflexivity|unfold ebind at 1; rewrite Ev; reflexivity].
  assert (PL : forall vs, zlen vs = zlen I * size ds -> 
     exists l, at_merge mask vs (elems a) = Ok l /\ placed origin I a vs (mkArr (dims a) l))
    by (intros vs; apply (at_placed origin I a d ds); assumption).
  cbv zeta. split; [|split].
  - intros Hv. destruct (PL _ Hv) as (l & El & Hpl). exists (mkArr (dims a) l). split; [|exact Hpl].
    assert (ER : (match elemsOf v with [x] => Ok (repeat x (length (masked mask (elems a))))
                  | _ => if zlen (elemsOf v) =? zlen (masked mask (elems a)) then Ok (elemsOf v) else Err end) = Ok (elemsOf v)).
    { assert (E1 : (if zlen (elemsOf v) =? zlen (masked mask (elems a)) then Ok (elemsOf v) else Err) = Ok (elemsOf v))
        by (replace (zlen (elemsOf v) =? zlen (masked mask (elems a))) with true by lia; reflexivity).
      destruct (elemsOf v) as [|x [|y vr]]; try exact E1. f_equal.
      replace (length (masked mask (elems a))) with 1%nat; [reflexivity|]. unfold zlen in *. cbn [length] in Hv. lia. }
    unfold ebind at 1. rewrite Ev. unfold ebind, elift. rewrite ER, El. reflexivity.
  - intros x Hx. destruct (PL (repeat x (Z.to_nat (zlen I * size ds)))) as (l & El & Hpl).
    { zla. pose proof (zlen_nonneg I). nia. }
    exists (mkArr (dims a) l). split; [|exact Hpl]. unfold ebind at 1. rewrite Ev. rewrite Hx. unfold ebind, elift.
    replace (length (masked mask (elems a))) with (Z.to_nat (zlen I * size ds)) by (unfold zlen in *; lia).
    rewrite El. reflexivity.
  - intros H1 H2. unfold ebind at 1. rewrite Ev. unfold ebind, elift.
    destruct (elemsOf v) as [|x [|y vr]] eqn:E; [| exfalso; apply H1; reflexivity|].
    + replace (zlen [] =? zlen (masked mask (elems a))) with false by lia. reflexivity.
    + replace (zlen (x :: y :: vr) =? zlen (masked mask (elems a))) with false by lia. reflexivity.
Qed.

Lemma masked_selected {A} m : forall l : list A, masked m l = selected m l.
Proof.
  induction m as [|b m IH]; intros [|x l]; try reflexivity. unfold selected in *. cbn [masked combine filter fst].
  destruct b; cbn [map snd]; rewrite IH; reflexivity.
Qed.
Lemma at_merge_masked {A} m : forall (repl l r : list A), zlen m = zlen l -> zlen repl = marks m ->
  at_merge m repl l = Ok r -> masked m r = repl.
Proof.
  induction m as [|b m IH]; intros repl l r Hl Hr E.
  - unfold marks in Hr. cbn in Hr. destruct repl; [|zln; lia]. destruct r; reflexivity.
  - destruct l as [|x l]; [zln; lia|]. zl. rewrite marks_cons in Hr. cbn [at_merge] in E. destruct b.
    + destruct repl as [|y repl]; [discriminate|]. destruct (at_merge m repl l) as [r'| |] eqn:E'; try discriminate.
      cbn in E. injection E as <-. cbn [masked]. f_equal. zl. eapply IH; [|lia|exact E']; lia.
    + destruct (at_merge m repl l) as [r'| |] eqn:E'; try discriminate.
      cbn in E. injection E as <-. cbn [masked]. eapply IH; [|lia|exact E']; lia.
Qed.
(* a selection function: [mask] is what it returns *)
Lemma at_op_mask {S A} (zero : A) (toBool : A -> option bool) origin (f : arr A -> eff S (val A)) g (a : arr A) b mask s s1 :
  wf a -> g (Arr a) s = (Ok (Arr b), s1) -> zlen (elems b) = zlen (elems a) ->
  map toBool (elems b) = map Some mask ->
  let sel := selected mask (elems a) in
  match f (vec sel) s1 with
  | (Ok v, s') =>
      (forall vs, (elemsOf v = vs /\ zlen vs = zlen sel) \/ (exists x, elemsOf v = [x] /\ vs = repeat x (length sel)) ->
        exists r, at_op zero toBool origin (RepFn f) (SelFn g) (Arr a) s = (Ok (Arr r), s') /\
          wf r /\ dims r = dims a /\ selected mask (elems r) = vs /\
          forall i, znth mask i = Some false -> znth (elems r) i = znth (elems a) i) /\
      (zlen (elemsOf v) <> 1 -> zlen (elemsOf v) <> zlen sel ->
        at_op zero toBool origin (RepFn f) (SelFn g) (Arr a) s = (Err, s'))
  | (Err, s') => at_op zero toBool origin (RepFn f) (SelFn g) (Arr a) s = (Err, s')
  | (Panic, s') => at_op zero toBool origin (RepFn f) (SelFn g) (Arr a) s = (Panic, s')
  end.
Proof.
  intros Hw Hg Hlb Hmap sel.
  assert (Hml : zlen mask = zlen (elems a)).
  { apply (f_equal (@zlen _)) in Hmap. zlh Hmap. lia. }
  assert (HM : mapM (fun x => match toBool x with Some b => Ok b | None => Err end) (elems b) = Ok mask).
  { clear - Hmap. revert mask Hmap. induction (elems b) as [|x l IH]; intros [|m mask] H; try discriminate; [reflexivity|].
    cbn [map] in H. injection H as H1 H2. cbn [mapM]. rewrite H1. cbn [obind]. rewrite (IH _ H2). reflexivity. }
  assert (Hsl : zlen sel = marks mask) by (unfold sel; rewrite <- masked_selected; apply zlen_masked; exact Hml).
  assert (EQ : at_op zero toBool origin (RepFn f) (SelFn g) (Arr a) s =
    (let! vr := f (vec sel) in
     let re := elemsOf vr in
     let! repl := elift (match re with
       | [x] => Ok (repeat x (length sel))
       | _ => if zlen re =? zlen sel then Ok re else Err end) in
     let! l := elift (at_merge mask repl (elems a)) in
     eret (Arr (mkArr (dims a) l))) s1).
  { unfold at_op. cbn [asArr]. unfold at_mask. unfold ebind at 1. unfold ebind at 1. rewrite Hg. cbn [sizeOf elemsOf]. unfold sizeOf. cbn [elemsOf].
    replace (zlen (elems b) =? zlen (elems a)) with true by lia. cbn [negb]. unfold ebind at 1, elift at 1. rewrite HM. unfold eret at 1.
    rewrite masked_selected. fold sel. apply ebind_ext; [|intros; reflexivity].
    rewrite Prod_size by discriminate. cbn [size]. rewrite Z.mul_1_r. pose proof (zlen_nonneg sel).
    replace (zlen sel <? 0) with false by lia. f_equal. unfold vec. f_equal. apply overwrite_full. rewrite repeat_length. unfold zlen. lia. }
  destruct (f (vec sel) s1) as [[v| |] s'] eqn:Ev; rewrite EQ; [|unfold ebind at 1; rewrite Ev; reflexivity|unfold ebind at 1; rewrite Ev; reflexivity].
  assert (PL : forall vs, zlen vs = zlen sel -> exists r, at_merge mask vs (elems a) = Ok r /\ zlen r = zlen (elems a) /\ selected mask r = vs /\
      forall i, znth mask i = Some false -> znth r i = znth (elems a) i).
  { intros vs Hvs. destruct (at_merge_spec mask vs (elems a) Hml ltac:(lia)) as (r & Er & Hr & Hz). exists r.
    split; [exact Er|]. split; [exact Hr|]. split.
    - rewrite <- masked_selected. eapply at_merge_masked; [exact Hml| |exact Er]. lia.
    - intros i Hi. pose proof (znth_some_range _ _ _ Hi). rewrite Hz by lia. rewrite Hi. reflexivity. }
  split.
  - intros vs Hvs.
    assert (Hlv : zlen vs = zlen sel).
    { destruct Hvs as [(_ & H)|(x & _ & ->)]; [exact H|]. zla. reflexivity. }
    destruct (PL vs Hlv) as (r & Er & Hr & Hs & Hz). exists (mkArr (dims a) r). split; [|split; [|split; [reflexivity|split; [exact Hs|exact Hz]]]].
    + unfold ebind at 1. rewrite Ev. cbv zeta.
      assert (ER : (match elemsOf v with [x] => Ok (repeat x (length sel)) | _ => if zlen (elemsOf v) =? zlen sel then Ok (elemsOf v) else Err end) = Ok vs).
      { destruct Hvs as [(H1 & H2)|(x & H1 & ->)]; rewrite H1; [|reflexivity].
        assert (E1 : (if zlen vs =? zlen sel then Ok vs else Err) = Ok vs) by (replace (zlen vs =? zlen sel) with true by lia; reflexivity).
        destruct vs as [|x [|y vr]]; try exact E1. f_equal. replace (length sel) with 1%nat; [reflexivity|]. unfold zlen in *. cbn [length] in H2. lia. }
      unfold ebind, elift. rewrite ER, Er. reflexivity.
    + destruct Hw as (H1 & H2 & H3). apply wf_fill_elems; [assumption|assumption|]. lia.
  - intros H1 H2. unfold ebind at 1. rewrite Ev. cbv zeta. unfold ebind, elift.
    destruct (elemsOf v) as [|x [|y vr]] eqn:E; [| exfalso; apply H1; reflexivity|].
    + replace (zlen [] =? zlen sel) with false by lia. reflexivity.
    + replace (zlen (x :: y :: vr) =? zlen sel) with false by lia. reflexivity.
Qed.

(* ---------------- rank ---------------- *)
Lemma mapM_zat_range {A} (l : list A) off m : 0 <= off -> 0 <= m -> off + m <= zlen l ->
  mapM (fun i => zat l (off + i)) (zseq m) = Ok (firstn (Z.to_nat m) (skipn (Z.to_nat off) l)).
Proof.
  intros H0 Hm Hl.
  assert (Hlen : zlen (firstn (Z.to_nat m) (skipn (Z.to_nat off) l)) = m).
  { unfold zlen in *. rewrite firstn_length, skipn_length. lia. }
  set (w := firstn (Z.to_nat m) (skipn (Z.to_nat off) l)) in *.
  assert (Hw : forall i, 0 <= i < m -> znth w i = znth l (off + i)).
  { intros i Hi. unfold w. rewrite znth_firstn by lia. rewrite znth_skipn by lia. f_equal. lia. }
  clearbody w.
  rewrite (mapM_ext _ (zat w)).
  - rewrite <- Hlen. pose proof (mapM_At_vec w) as H. unfold At, vec in H. exact H.
  - intros i Hi. apply In_zseq in Hi. unfold zat. rewrite Hw by lia. reflexivity.
Qed.
Lemma frame_cell_app {A} (a : arr A) k : frame_dims a k ++ cell_dims a k = dims a.
Proof. unfold frame_dims, cell_dims. apply firstn_skipn. Qed.
Lemma zlen_frame {A} (a : arr A) k : 0 <= k <= zlen (dims a) -> zlen (frame_dims a k) = zlen (dims a) - k.
Proof. intros H. unfold frame_dims, zlen in *. rewrite firstn_length. lia. Qed.
Lemma zlen_cell {A} (a : arr A) k : 0 <= k <= zlen (dims a) -> zlen (cell_dims a k) = k.
Proof. intros H. unfold cell_dims, zlen in *. rewrite skipn_length. lia. Qed.
Lemma subcell_ok {A} (a : arr A) k n d : wf a -> 1 <= k < zlen (dims a) -> 0 <= n < size (frame_dims a k) ->
  znth (dims a) (zlen (dims a) - 1 - k) = Some d -> n <= d ->
  subcell a k n = Ok (Arr (mkArr (cell_dims a k) (cell_elems a k n))).
Proof.
  intros (Hne & Hnn & Hl) Hk Hn Hd Hnd. unfold subcell.
  replace (k =? 0) with false by lia. replace ((k <? 0) || (zlen (dims a) <? k)) with false by lia.
  unfold zat. rewrite Hd. cbn [obind]. replace ((n <? 0) || (d <? n)) with false by lia.
  fold (cell_dims a k).
  assert (Hc : cell_dims a k <> []).
  { intro E. pose proof (zlen_cell a k ltac:(lia)) as H. rewrite E in H. cbn in H. lia. }
  assert (Hcn : Forall (fun d => 0 <= d) (cell_dims a k)).
  { rewrite <- (frame_cell_app a k) in Hnn. apply Forall_app in Hnn. tauto. }
  rewrite Prod_size by exact Hc. pose proof (size_nonneg _ Hcn).
  replace (size (cell_dims a k) <? 0) with false by lia.
  rewrite <- (frame_cell_app a k), size_app in Hl.
  change (At a) with (zat (elems a)). cbv beta.
  rewrite mapM_zat_range by nia. reflexivity.
Qed.

Lemma common_step_nil s : Forall (fun d => 0 <= d) s -> common_step [] s = s.
Proof.
  intros H. unfold common_step. cbn [length]. rewrite Nat.sub_0_r, app_nil_r.
  unfold zerosZ. rewrite repeat_length, Nat.sub_diag. cbn [firstn skipn app].
  induction H as [|d s Hd _ IH]; [reflexivity|]. cbn [length repeat zmax2]. rewrite IH.
  destruct (0 <? d) eqn:E; [reflexivity|]. f_equal. lia.
Qed.
Lemma common_step_same s : common_step s s = s.
Proof.
  unfold common_step. rewrite Nat.sub_diag. cbn [zerosZ repeat app]. rewrite Nat.sub_diag. cbn [firstn skipn app].
  induction s as [|d s IH]; [reflexivity|]. cbn [zmax2]. rewrite IH. destruct (d <? d); reflexivity.
Qed.
Lemma common_shape_arr {A} (bs : list (arr A)) cs : bs <> [] -> Forall (fun d => 0 <= d) cs ->
  Forall (fun b => dims b = cs) bs -> common_shape (map Arr bs) = cs.
Proof.
  intros Hb Hnn HF. unfold common_shape. destruct HF as [|b bs Hd HF]; [congruence|]. cbn [map fold_left].
  rewrite Hd, common_step_nil by exact Hnn. clear Hb. induction HF as [|b' bs Hd' _ IH]; [reflexivity|].
  cbn [map fold_left]. rewrite Hd', common_step_same. exact IH.
Qed.
Lemma common_shape_scal {A} (xs : list A) : common_shape (map Scal xs) = [].
Proof. unfold common_shape. induction xs as [|x xs IH]; [reflexivity|exact IH]. Qed.
Lemma Reshape_same {A} (b : arr A) : wf b -> Reshape b (dims b) = Ok b.
Proof.
  intros Hw. destruct (elems b) as [|x l] eqn:E.
  - destruct Hw as (Hne & Hnn & Hl). unfold Reshape. rewrite Prod_size by exact Hne. rewrite <- Hl, E. cbn. destruct b; cbn in *; subst; reflexivity.
  - apply Reshape_self; [exact Hw|congruence|reflexivity].
Qed.
Lemma conform_same {A} (zero : A) (b : arr A) cs : wf b -> dims b = cs -> conform zero cs (Arr b) = Ok (elems b).
Proof.
  intros Hw <-. unfold conform. rewrite Nat.sub_diag. cbn [repeat app]. rewrite Reshape_same by exact Hw.
  cbn [obind]. rewrite list_eqb_refl. reflexivity.
Qed.
Lemma mapM_zat_self {A} (l : list A) : mapM (zat l) (zseq (zlen l)) = Ok l.
Proof. pose proof (mapM_At_vec l) as H. unfold At, vec in H. exact H. Qed.

(* the cell passed to the function *)

Lemma rank1_ok {S A} (zero : A) (f : val A -> eff S (val A)) k (a : arr A) (cells : list (val A)) s :
  wf a -> 0 <= k < zlen (dims a) ->
  (k = 0 \/ exists d, znth (dims a) (zlen (dims a) - 1 - k) = Some d /\ size (frame_dims a k) <= d + 1) ->
  map Some cells = map (cell_val a k) (zseq (size (frame_dims a k))) ->
  match mapE f cells s with
  | (Ok results, s') =>
      (forall xs, results = map Scal xs ->
         rank1 zero f [k] (Arr a) s = (Ok (Arr (mkArr (frame_dims a k) xs)), s')) /\
      (forall bs cs, results = map Arr bs -> bs <> [] -> Forall (fun b => wf b /\ dims b = cs) bs ->
         rank1 zero f [k] (Arr a) s = (Ok (Arr (mkArr (frame_dims a k ++ cs) (concat (map elems bs)))), s'))
  | (Err, s') => rank1 zero f [k] (Arr a) s = (Err, s')
  | (Panic, s') => rank1 zero f [k] (Arr a) s = (Panic, s')
  end.
Proof.
  intros Hw Hk Hcase Hcells.
  pose proof Hw as (Hne & Hnn & Hl).
  assert (Hfnn : Forall (fun d => 0 <= d) (frame_dims a k)).
  { rewrite <- (frame_cell_app a k) in Hnn. apply Forall_app in Hnn. tauto. }
  pose proof (zlen_frame a k ltac:(lia)) as Hfl.
  assert (Hfne : frame_dims a k <> []) by (intro E; rewrite E in Hfl; cbn in Hfl; lia).
  pose proof (size_nonneg _ Hfnn) as Hfs.
  assert (Hrf : rank_frame a k = Ok (frame_dims a k)).
  { unfold rank_frame. replace ((zlen (dims a) - k <? 0) || (zlen (dims a) <? zlen (dims a) - k)) with false by lia.
    unfold frame_dims. do 2 f_equal. unfold zlen. lia. }
  assert (Hloop : forall t, mapE (fun i => let! c := elift (subcell a k i) in f c) (zseq (size (frame_dims a k))) t = mapE f cells t).
  { apply mapE_Forall2_eq.
    apply Forall2_from_znth.
    - apply (f_equal (@zlen _)) in Hcells. zlh Hcells. rewrite zlen_zseq. lia.
    - intros i x c Hx Hc t. pose proof (znth_some_range _ _ _ Hx) as Hi. rewrite zlen_zseq in Hi.
      rewrite znth_zseq in Hx by lia. injection Hx as <-.
      assert (HC : cell_val a k i = Some c).
      { apply (f_equal (fun l => znth l i)) in Hcells. rewrite !znth_map, Hc, znth_zseq in Hcells by lia. cbn in Hcells. congruence. }
      assert (HS : subcell a k i = Ok c).
      { unfold cell_val in HC. destruct (k =? 0) eqn:E0.
        - unfold subcell. rewrite E0. unfold At, zat. destruct (znth (elems a) i); [|discriminate]. cbn in *. congruence.
        - destruct Hcase as [->|(d & Hd & Hr)]; [discriminate|].
          rewrite (subcell_ok a k i d Hw ltac:(lia) ltac:(lia) Hd ltac:(lia)). injection HC as <-. reflexivity. }
      unfold ebind, elift. rewrite HS. reflexivity. }
  assert (EQ : rank1 zero f [k] (Arr a) s =
     (let! results := mapE f cells in
      let common := common_shape results in
      let! cells := elift (mapM (conform zero common) results) in
      let resdims := frame_dims a k ++ common in
      if Prod resdims <? 0 then epanic else
      match common with
      | [] => if negb (zlen results =? Prod resdims) then efail else eret (Arr (mkArr resdims (concat cells)))
      | _ => let! l := elift (mapM (fun c => mapM (zat c) (zseq (Prod common))) cells) in
             eret (Arr (mkArr resdims (concat l)))
      end) s).
  { assert (Ek : (k <? 0) = false) by lia. assert (Ek2 : (zlen (dims a) <? k) = false) by lia.
    unfold rank1. cbn [rank_pqr asArr]. cbv zeta. rewrite Ek. rewrite Ek. rewrite Ek2. cbn [orb].
    unfold ebind at 1, elift at 1. rewrite Hrf. cbv iota beta.
    rewrite (Prod_size (frame_dims a k)) by exact Hfne.
    apply ebind_ext; [apply Hloop|]. intros res t. reflexivity. }
  destruct (mapE f cells s) as [[results| |] s'] eqn:Ev; rewrite EQ;
    [|unfold ebind at 1; rewrite Ev; reflexivity|unfold ebind at 1; rewrite Ev; reflexivity].
  cbv zeta.
  assert (Hrl : zlen results = size (frame_dims a k)).
  { rewrite (mapE_zlen _ _ _ _ _ Ev). apply (f_equal (@zlen _)) in Hcells. zlh Hcells. lia. }
  split.
  - intros xs Hxs. unfold ebind at 1. rewrite Ev.
    subst results. rewrite common_shape_scal, app_nil_r. zlh Hrl.
    assert (HM : mapM (conform zero []) (map Scal xs) = Ok (map (fun x => [x]) xs)).
    { clear. induction xs as [|x xs IH]; [reflexivity|]. cbn [map mapM]. rewrite IH. reflexivity. }
    unfold ebind at 1, elift at 1. rewrite HM. rewrite Prod_size by exact Hfne.
    replace (size (frame_dims a k) <? 0) with false by lia. zla.
    replace (zlen xs =? size (frame_dims a k)) with true by lia. cbn [negb]. unfold eret. do 4 f_equal.
    clear. induction xs as [|x xs IH]; [reflexivity|]. cbn. rewrite IH. reflexivity.
  - intros bs cs Hbs Hbne HF. unfold ebind at 1. rewrite Ev.
    subst results.
    assert (Hcs : cs <> [] /\ Forall (fun d => 0 <= d) cs).
    { destruct HF as [|b bs' (Hwb & Hdb) _]; [congruence|]. destruct Hwb as (H1 & H2 & _). rewrite <- Hdb. auto. }
    destruct Hcs as (Hcne & Hcnn).
    rewrite (common_shape_arr bs cs Hbne Hcnn) by (eapply Forall_impl; [|exact HF]; intros b (_ & Hb); exact Hb).
    assert (HM : mapM (conform zero cs) (map Arr bs) = Ok (map elems bs)).
    { clear - HF. induction HF as [|b bs (Hwb & Hb) _ IH]; [reflexivity|]. cbn [map mapM].
      rewrite (conform_same zero b cs Hwb Hb). cbn [obind]. rewrite IH. reflexivity. }
    unfold ebind at 1, elift at 1. rewrite HM.
    assert (HPne : frame_dims a k ++ cs <> []) by (destruct (frame_dims a k); [congruence|discriminate]).
    rewrite Prod_size by exact HPne. rewrite size_app. pose proof (size_nonneg _ Hcnn).
    replace (size (frame_dims a k) * size cs <? 0) with false by nia.
    destruct cs as [|c0 cr] eqn:Ecs; [congruence|]. rewrite <- Ecs in *.
    assert (HM2 : mapM (fun c => mapM (zat c) (zseq (Prod cs))) (map elems bs) = Ok (map elems bs)).
    { rewrite Prod_size by (rewrite Ecs; discriminate). clear - HF.
      induction HF as [|b bs (Hwb & Hb) _ IH]; [reflexivity|]. cbn [map mapM].
      destruct Hwb as (_ & _ & Hlb). rewrite <- Hb, <- Hlb at 1. rewrite mapM_zat_self. cbn [obind]. rewrite IH. reflexivity. }
    unfold ebind, elift. rewrite HM2. reflexivity.
Qed.
