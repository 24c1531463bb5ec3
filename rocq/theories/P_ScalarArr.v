(* P_ScalarArr.v -- proofs about the array forms of the scalar functions. *)
From Coq Require Import String Permutation.
From Verif Require Import Base M_Array S_Array P_Array M_Structural P_Transpose M_Number S_Number P_Number P_Tower S_Operators M_Scalar P_Scalar.
Open Scope Z_scope.

Lemma map_pos_all_idx ds : Forall (fun d => 0 <= d) ds -> map (pos ds) (all_idx ds) = zseq (size ds).
Proof.
  intros H. pose proof (size_nonneg ds H) as Hn. apply znth_ext; [rewrite zlen_map, zlen_all_idx, zlen_zseq by assumption; lia|].
  intros i Hi. rewrite zlen_map, zlen_all_idx in Hi by assumption.
  destruct (ic_indexes_spec ds i H Hi) as (idx & _ & Hb & <-).
  rewrite znth_map, (znth_all_idx ds idx Hb). cbn [option_map]. rewrite znth_zseq by exact Hi. reflexivity.
Qed.

Section LOOP.
  Context {A : Type} (ds : list Z) (body : Z -> outcome A).
  Hypothesis Hds : ds <> [].
  Hypothesis Hnn : Forall (fun d => 0 <= d) ds.
  Lemma loop_all : mapM body (zseq (Prod ds)) = mapM (fun idx => body (pos ds idx)) (all_idx ds).
  Proof.
    rewrite Prod_size, <- map_pos_all_idx by assumption.
    induction (all_idx ds) as [|i l IH]; [reflexivity|]. cbn [map mapM]. rewrite IH. reflexivity.
  Qed.
  Lemma loop_ok (g : list Z -> A) : (forall idx, inb ds idx -> body (pos ds idx) = Ok (g idx)) ->
    mapM body (zseq (Prod ds)) = Ok (map g (all_idx ds)).
  Proof. intros H. rewrite loop_all. apply mapM_ok_map. intros idx Hi. apply H, In_all_idx, Hi. Qed.
  Lemma loop_err : (forall idx, inb ds idx -> body (pos ds idx) <> Panic) -> (exists idx, inb ds idx /\ body (pos ds idx) = Err) ->
    mapM body (zseq (Prod ds)) = Err.
  Proof.
    intros H (idx & Hi & He). rewrite loop_all. apply In_all_idx in Hi.
    assert (G : forall i, In i (all_idx ds) -> body (pos ds i) <> Panic) by (intros i Hi'; apply H, In_all_idx, Hi').
    revert Hi G. induction (all_idx ds) as [|j l IH]; intros Hi G; [contradiction|]. cbn [mapM].
    destruct (body (pos ds j)) as [x| |] eqn:E; cbn [obind]; [|reflexivity|exfalso; exact (G j (or_introl eq_refl) E)].
    destruct Hi as [->|Hi]; [congruence|]. rewrite IH; [reflexivity|exact Hi|]. intros i Hi'. apply G. right. exact Hi'.
  Qed.
End LOOP.

Section SC.
  Context {P : Type} (M : methods P) (t : tower P) (hu : ntype -> bool).
  Local Notation sv := (sval P).

  Lemma prod_nn ds : ds <> [] -> Forall (fun d => 0 <= d) ds -> (Prod ds <? 0) = false.
  Proof. intros H1 H2. rewrite Prod_size by assumption. apply Z.ltb_ge, size_nonneg, H2. Qed.

  Lemma array1_ok (efn : sv -> outcome sv) (a : arr sv) (g : list Z -> sv) : wf a ->
    (forall idx, inb (dims a) idx -> exists x, elem a idx = Some x /\ efn x = Ok (g idx)) ->
    exists r, array1 M t hu efn (Arr a) = Ok r /\ is_array (dims a) (fun idx => Some (g idx)) (view r).
  Proof.
    intros (W1 & W2 & W3) H. unfold array1. cbn [asArr]. rewrite prod_nn by assumption.
    rewrite (loop_ok (dims a) _ W1 W2 g); cycle 1.
    { intros idx Hi. destruct (H idx Hi) as (x & E1 & E2). unfold At, zat. unfold elem in E1. rewrite E1. exact E2. }
    cbn [obind]. destruct (finish_view M t hu (mkArr (dims a) (map g (all_idx (dims a))))) as (r & Hr & Hv); [intros _; apply wf_build; assumption|].
    exists r. split; [exact Hr|]. rewrite Hv. split; [apply wf_build; assumption|]. split; [reflexivity|].
    intros idx Hi. apply elem_build. exact Hi.
  Qed.
  Lemma array1_err (efn : sv -> outcome sv) (a : arr sv) : wf a ->
    (forall x, In x (elems a) -> efn x <> Panic) -> (exists x, In x (elems a) /\ efn x = Err) ->
    array1 M t hu efn (Arr a) = Err.
  Proof.
    intros (W1 & W2 & W3) H (x & Hx & He). unfold array1. cbn [asArr]. rewrite prod_nn by assumption.
    rewrite (loop_err (dims a) _ W1 W2); [reflexivity| |].
    - intros idx Hi. destruct (elem_some a idx (conj W1 (conj W2 W3)) Hi) as (y & Ey). unfold At, zat. unfold elem in Ey. rewrite Ey. cbn [obind].
      apply H. eapply znth_In; exact Ey.
    - apply In_znth in Hx. destruct Hx as (i & Hi). pose proof (znth_some_range _ _ _ Hi) as Hr. rewrite W3 in Hr.
      destruct (ic_indexes_spec (dims a) i W2 Hr) as (idx & _ & Hb & Hp). exists idx. split; [exact Hb|]. rewrite Hp. unfold At, zat. rewrite Hi. exact He.
  Qed.

  (* the element of an argument that takes part at idx *)
  Definition arg_at (v : val sv) (idx : list Z) : option sv := match v with Scal x => Some x | Emp => None | Arr a => elem a idx end.
  Definition arg_ok (ds : list Z) (v : val sv) : Prop := match v with Scal _ => True | Emp => False | Arr a => wf a /\ dims a = ds end.
  Lemma arg_get ds v idx x : arg_ok ds v -> arg_at v idx = Some x ->
    match v with Scal x => Ok x | _ => At (asArr v) (pos ds idx) end = Ok x.
  Proof.
    destruct v as [y| |a]; cbn; intros Hk H; [congruence|contradiction|]. destruct Hk as (_ & <-). unfold At, zat. unfold elem in H. rewrite H. reflexivity.
  Qed.
  Lemma arg_some ds v idx : arg_ok ds v -> inb ds idx -> exists x, arg_at v idx = Some x.
  Proof. destruct v as [y| |a]; cbn; intros Hk H; [eauto|contradiction|]. destruct Hk as (W & <-). apply elem_some; assumption. Qed.
  Definition shape2 (L R : val sv) := match L with Scal _ => shapeOf R | _ => shapeOf L end.

  Lemma array2_ok (efn : sv -> sv -> outcome sv) (L R : val sv) ds (g : list Z -> sv) :
    ds <> [] -> Forall (fun d => 0 <= d) ds -> arg_ok ds L -> arg_ok ds R -> shape2 L R = ds ->
    (forall idx, inb ds idx -> exists x y, arg_at L idx = Some x /\ arg_at R idx = Some y /\ efn x y = Ok (g idx)) ->
    exists r, array2 M t hu efn L R = Ok r /\ is_array ds (fun idx => Some (g idx)) (view r).
  Proof.
    intros W1 W2 HL HR Hs H.
    destruct (finish_view M t hu (mkArr ds (map g (all_idx ds)))) as (r & Hr & Hv); [intros _; apply wf_build; assumption|].
    assert (E : array2 M t hu efn L R = finish M t hu (mkArr ds (map g (all_idx ds)))).
    { assert (E' : array2 M t hu efn L R = (if Prod ds <? 0 then Panic else
        let* l := mapM (fun i =>
            let* lv := match L with Scal x => Ok x | _ => At (asArr L) i end in
            let* rv := match R with Scal y => Ok y | _ => At (asArr R) i end in
            efn lv rv) (zseq (Prod ds)) in
        finish M t hu (mkArr ds l))).
      { unfold array2. rewrite <- Hs. destruct L, R; try contradiction; reflexivity. }
      rewrite E', prod_nn by assumption. rewrite (loop_ok ds _ W1 W2 g); [reflexivity|].
      intros idx Hi. destruct (H idx Hi) as (x & y & Ex & Ey & Ef). rewrite (arg_get ds L idx x HL Ex). cbn [obind]. rewrite (arg_get ds R idx y HR Ey). exact Ef. }
    rewrite E. exists r. split; [exact Hr|]. rewrite Hv. split; [apply wf_build; assumption|]. split; [reflexivity|].
    intros idx Hi. apply elem_build. exact Hi.
  Qed.
  Lemma array2_err (efn : sv -> sv -> outcome sv) (L R : val sv) ds :
    ds <> [] -> Forall (fun d => 0 <= d) ds -> arg_ok ds L -> arg_ok ds R -> shape2 L R = ds ->
    (forall x y, efn x y <> Panic) ->
    (exists idx x y, inb ds idx /\ arg_at L idx = Some x /\ arg_at R idx = Some y /\ efn x y = Err) ->
    array2 M t hu efn L R = Err.
  Proof.
    intros W1 W2 HL HR Hs Hp (idx & x & y & Hi & Ex & Ey & Ef).
    assert (E' : array2 M t hu efn L R = (if Prod ds <? 0 then Panic else
        let* l := mapM (fun i =>
            let* lv := match L with Scal x => Ok x | _ => At (asArr L) i end in
            let* rv := match R with Scal y => Ok y | _ => At (asArr R) i end in
            efn lv rv) (zseq (Prod ds)) in
        finish M t hu (mkArr ds l))).
    { unfold array2. rewrite <- Hs. destruct L, R; try contradiction; reflexivity. }
    rewrite E', prod_nn by assumption. rewrite (loop_err ds _ W1 W2); [reflexivity| |].
    - intros j Hj. destruct (arg_some ds L j HL Hj) as (x' & Ex'). destruct (arg_some ds R j HR Hj) as (y' & Ey').
      rewrite (arg_get ds L j x' HL Ex'). cbn [obind]. rewrite (arg_get ds R j y' HR Ey'). cbn [obind]. apply Hp.
    - exists idx. split; [exact Hi|]. rewrite (arg_get ds L idx x HL Ex). cbn [obind]. rewrite (arg_get ds R idx y HR Ey). exact Ef.
  Qed.

  Lemma leqb_eq a b : leqb a b = true <-> a = b.
  Proof.
    revert b. induction a as [|x a IH]; intros [|y b]; cbn; split; intros H; try discriminate; try reflexivity.
    - apply andb_prop in H. destruct H as (H1 & H2). apply Z.eqb_eq in H1. apply IH in H2. congruence.
    - injection H as -> ->. rewrite Z.eqb_refl. apply IH. reflexivity.
  Qed.
End SC.

(* ---- the axis form ---- *)
Lemma increasing_cons n xs : increasing (n :: xs) -> increasing xs /\ forall m, In m xs -> n < m.
Proof.
  intros H. split.
  - intros p q x y Hpq Hx Hy. pose proof (znth_some_range _ _ _ Hx). apply (H (p + 1) (q + 1) x y); [lia| |];
      rewrite znth_cons_pos by lia; [replace (p + 1 - 1) with p by lia|replace (q + 1 - 1) with q by lia]; assumption.
  - intros m Hm. apply In_znth in Hm. destruct Hm as (i & Hi). pose proof (znth_some_range _ _ _ Hi).
    apply (H 0 (i + 1) n m); [lia|reflexivity|]. rewrite znth_cons_pos by lia. replace (i + 1 - 1) with i by lia. exact Hi.
Qed.
Lemma increasing_mk n xs : increasing xs -> (forall m, In m xs -> n < m) -> increasing (n :: xs).
Proof.
  intros H1 H2 p q x y Hpq Hx Hy. pose proof (znth_some_range _ _ _ Hx) as Rx. pose proof (znth_some_range _ _ _ Hy) as Ry.
  rewrite (znth_cons_pos _ _ q) in Hy by lia. destruct (Z.eq_dec p 0) as [->|Hp].
  - cbn in Hx. injection Hx as <-. apply H2. eapply znth_In; exact Hy.
  - rewrite (znth_cons_pos _ _ p) in Hx by lia. apply (H1 (p - 1) (q - 1)); [lia|assumption|assumption].
Qed.

Lemma sortZ_perm l : Permutation (sortZ l) l.
Proof.
  assert (I : forall x l, Permutation (insertZ x l) (x :: l)).
  { intros x. induction l0 as [|y r IH]; [reflexivity|]. cbn. destruct (x <=? y); [reflexivity|]. rewrite IH. apply perm_swap. }
  induction l as [|x l IH]; [reflexivity|]. cbn. rewrite I, IH. reflexivity.
Qed.
Fixpoint nondec (l : list Z) : Prop := match l with [] => True | x :: r => (forall y, In y r -> x <= y) /\ nondec r end.
Lemma sortZ_nondec l : nondec (sortZ l).
Proof.
  assert (I : forall x l, nondec l -> nondec (insertZ x l)).
  { intros x. induction l0 as [|y r IH]; [cbn; split; [contradiction|exact I]|]. intros (H1 & H2). cbn. destruct (Z.leb_spec x y).
    - cbn. split; [|split; assumption]. intros z [<-|Hz]; [assumption|]. specialize (H1 z Hz). lia.
    - cbn. split; [|apply IH; exact H2]. intros z Hz.
      assert (Hz' : In z (x :: r)).
      { clear - Hz. induction r as [|w r IH']; cbn in Hz; [exact Hz|]. destruct (x <=? w); [exact Hz|]. destruct Hz as [<-|Hz]; [right; left; reflexivity|].
        destruct (IH' Hz) as [<-|H]; [left; reflexivity|right; right; exact H]. }
      destruct Hz' as [<-|Hz']; [lia|apply H1; exact Hz']. }
  induction l as [|x l IH]; [exact Logic.I|]. cbn. apply I. exact IH.
Qed.
Lemma nondec_unique l1 : forall l2, nondec l1 -> nondec l2 -> Permutation l1 l2 -> l1 = l2.
Proof.
  induction l1 as [|x l1 IH]; intros l2 H1 H2 Hp; [apply Permutation_nil in Hp; congruence|].
  destruct l2 as [|y l2]; [apply Permutation_sym, Permutation_nil in Hp; discriminate|].
  destruct H1 as (A1 & B1), H2 as (A2 & B2).
  assert (x = y).
  { assert (Hx : In x (y :: l2)) by (eapply Permutation_in; [exact Hp|left; reflexivity]).
    assert (Hy : In y (x :: l1)) by (eapply Permutation_in; [apply Permutation_sym; exact Hp|left; reflexivity]).
    destruct Hx as [|Hx]; [congruence|]. destruct Hy as [|Hy]; [congruence|]. specialize (A2 x Hx). specialize (A1 y Hy). lia. }
  subst y. f_equal. apply IH; [assumption|assumption|]. eapply Permutation_cons_inv. exact Hp.
Qed.
Lemma increasing_nondec l : increasing l -> nondec l.
Proof. induction l as [|x l IH]; intros H; [exact I|]. apply increasing_cons in H. destruct H as (H1 & H2). split; [intros y Hy; specialize (H2 y Hy); lia|apply IH; exact H1]. Qed.
Lemma nondec_map_sub o l : nondec l -> nondec (map (fun v => v - o) l).
Proof. induction l as [|x l IH]; intros H; [exact I|]. destruct H as (H1 & H2). split; [|apply IH; exact H2]. intros y Hy. apply in_map_iff in Hy. destruct Hy as (z & <- & Hz). specialize (H1 z Hz). lia. Qed.
(* the sorted axes, counted from 0 *)
Lemma sorted_axes o X xs : increasing xs -> Permutation (map (fun n => n + o) xs) X -> map (fun v => v - o) (sortZ X) = xs.
Proof.
  intros Hi Hp. apply nondec_unique; [apply nondec_map_sub, sortZ_nondec|apply increasing_nondec, Hi|].
  rewrite (sortZ_perm X), <- Hp, map_map. replace (map (fun x => x + o - o) xs) with xs; [reflexivity|].
  rewrite <- (map_id xs) at 1. apply map_ext. intros; lia.
Qed.
Lemma sorted_axes_inv o X : Permutation (map (fun n => n + o) (map (fun v => v - o) (sortZ X))) X.
Proof. rewrite map_map. rewrite <- (sortZ_perm X) at 2. rewrite <- (map_id (sortZ X)) at 2. erewrite map_ext; [reflexivity|]. intros; cbn; lia. Qed.

Lemma axis_ok_true ls : forall x prev rs, length x = length rs -> increasing x -> (match prev with Some p => forall m, In m x -> p < m | None => True end) ->
  Forall2 (fun n d => znth ls n = Some d) x rs -> axis_ok ls prev x rs = true.
Proof.
  induction x as [|n x IH]; intros prev rs Hl Hi Hp Hf; inversion Hf as [|n' d x' rs' Hd Hf' E1 E2]; subst; [reflexivity|]. cbn [axis_ok].
  pose proof (znth_some_range _ _ _ Hd) as Hr. destruct (Z.ltb_spec n 0); [lia|]. destruct (Z.leb_spec (zlen ls) n); [lia|]. cbn [orb].
  assert (E : match prev with Some p => n =? p | None => false end = false).
  { destruct prev as [p|]; [|reflexivity]. apply Z.eqb_neq. specialize (Hp n (or_introl eq_refl)). lia. }
  rewrite E, Hd, Z.eqb_refl. apply increasing_cons in Hi. destruct Hi as (Hi1 & Hi2). apply IH; [cbn in Hl; congruence|assumption|exact Hi2|assumption].
Qed.
Lemma axis_ok_inv ls : forall x prev rs, length x = length rs -> nondec x -> (match prev with Some p => forall m, In m x -> p <= m | None => True end) ->
  axis_ok ls prev x rs = true -> increasing x /\ (match prev with Some p => forall m, In m x -> p < m | None => True end) /\ Forall2 (fun n d => znth ls n = Some d) x rs.
Proof.
  induction x as [|n x IH]; intros prev [|d rs] Hl Hn Hp H; try discriminate Hl.
  - split; [intros p q a b _ Ha; apply znth_In in Ha; contradiction|]. split; [destruct prev; [contradiction|exact I]|constructor].
  - cbn [axis_ok] in H. destruct ((n <? 0) || (zlen ls <=? n)); [discriminate|].
    destruct (match prev with Some p => n =? p | None => false end) eqn:E; [discriminate|].
    destruct (znth ls n) as [dn|] eqn:Ed; [|discriminate]. destruct (Z.eqb_spec dn d) as [->|]; [|discriminate].
    destruct Hn as (Hn1 & Hn2). destruct (IH (Some n) rs) as (I1 & I2 & I3); [cbn in Hl; congruence|assumption|exact Hn1|exact H|].
    split; [apply increasing_mk; assumption|]. split; [|constructor; assumption].
    destruct prev as [p|]; [|exact I]. apply Z.eqb_neq in E. intros m [<-|Hm].
    + specialize (Hp n (or_introl eq_refl)). lia.
    + specialize (I2 m Hm). specialize (Hp n (or_introl eq_refl)). lia.
Qed.

Lemma rightShape_spec : forall x rs rank, length x = length rs -> increasing x -> Forall (fun n => 0 <= n < Z.of_nat rank) x ->
  length (rightShape rank x rs) = rank /\ Forall2 (fun n d => znth (rightShape rank x rs) n = Some d) x rs /\
  forall j, 0 <= j < Z.of_nat rank -> ~ In j x -> znth (rightShape rank x rs) j = Some 1.
Proof.
  intros x rs rank Hl Hi Hr. unfold rightShape.
  set (acc := repeat 1 rank).
  assert (Hacc : length acc = rank) by apply repeat_length.
  assert (G : forall (x rs acc : list Z), length x = length rs -> increasing x -> Forall (fun n => 0 <= n < Z.of_nat (length acc)) x ->
    let r := fold_left (fun s '(n, d) => zupd s n d) (combine x rs) acc in
    length r = length acc /\ Forall2 (fun n d => znth r n = Some d) x rs /\ forall j, ~ In j x -> znth r j = znth acc j).
  { clear. induction x as [|n x IH]; intros [|d rs] acc Hl Hi Hr; try discriminate Hl; cbn.
    - split; [reflexivity|]. split; [constructor|reflexivity].
    - apply increasing_cons in Hi. destruct Hi as (Hi1 & Hi2). inversion Hr as [|? ? Hn Hr']; subst.
      assert (L : length (zupd acc n d) = length acc) by (pose proof (zlen_zupd acc n d) as HH; unfold zlen in HH; lia).
      destruct (IH rs (zupd acc n d)) as (G1 & G2 & G3); [cbn in Hl; congruence|assumption|rewrite L; exact Hr'|].
      split; [congruence|]. split.
      + constructor; [|exact G2]. rewrite G3; [|intros Hin; specialize (Hi2 n Hin); lia]. rewrite znth_zupd_same; [reflexivity|unfold zlen; lia].
      + intros j Hj. rewrite G3; [|tauto]. rewrite znth_zupd_other; [reflexivity|]. intros ->. apply Hj. left. reflexivity. }
  destruct (G x rs acc Hl Hi ltac:(rewrite Hacc; exact Hr)) as (G1 & G2 & G3).
  split; [congruence|]. split; [exact G2|]. intros j Hj Hn. rewrite G3 by exact Hn. unfold acc.
  apply znth_repeat. lia.
Qed.

Lemma pos_clip : forall rsh idx k xs rs c, length rsh = length idx -> increasing xs -> Forall (fun n => k <= n < k + zlen rsh) xs ->
  Forall2 (fun n d => znth rsh (n - k) = Some d) xs rs -> Forall2 (fun n i => znth idx (n - k) = Some i) xs c ->
  inb rs c -> (forall i, In i idx -> 0 <= i) ->
  (forall j, 0 <= j < zlen rsh -> ~ In (j + k) xs -> znth rsh j = Some 1) ->
  size rsh = size rs /\ pos rsh (clip idx rsh) = pos rs c.
Proof.
  induction rsh as [|d rsh IH]; intros [|i idx] k xs rs c Hl Hi Hr Hrs Hc Hb Hnn H1; try discriminate Hl.
  - destruct xs as [|n xs]; [|inversion Hr; subst; unfold zlen in *; cbn in *; lia]. inversion Hrs; subst. split; reflexivity.
  - assert (Hz : zlen (d :: rsh) = zlen rsh + 1) by (unfold zlen; cbn [length]; lia). pose proof (zlen_nonneg rsh) as Hzn.
    change (clip (i :: idx) (d :: rsh)) with ((if d <=? i then 0 else i) :: clip idx rsh). cbn [size pos].
    assert (Hgt : forall xs', increasing xs' -> Forall (fun n => k < n < k + zlen (d :: rsh)) xs' -> Forall (fun n => k + 1 <= n < k + 1 + zlen rsh) xs')
      by (intros xs' _ HF; rewrite Forall_forall in *; intros m Hm; specialize (HF m Hm); lia).
    assert (Hsh : forall {B} (x0 : B) l xs' (ys : list B), Forall (fun n => k < n) xs' -> Forall2 (fun n y => znth (x0 :: l) (n - k) = Some y) xs' ys -> Forall2 (fun n y => znth l (n - (k + 1)) = Some y) xs' ys).
    { intros B x0 l xs' ys Hk H2. induction H2 as [|n y xs'' ys' E H2 IH2]; [constructor|]. inversion Hk; subst.
      constructor; [rewrite znth_cons_pos in E by lia; replace (n - (k + 1)) with (n - k - 1) by lia; exact E|apply IH2; assumption]. }
    destruct xs as [|n xs].
    + inversion Hrs; inversion Hc; subst.
      assert (E : znth (d :: rsh) 0 = Some 1) by (apply H1; [lia|intros []]). cbn in E. injection E as ->.
      destruct (IH idx (k + 1) [] [] []) as (I1 & I2); try assumption; try (constructor; fail); try (cbn in Hl; congruence).
      * intros j Hj. apply Hnn. right. exact Hj.
      * intros j Hj _. specialize (H1 (j + 1) ltac:(lia) ltac:(intros [])). rewrite znth_cons_pos in H1 by lia. replace (j + 1 - 1) with j in H1 by lia. exact H1.
      * rewrite I1, I2. cbn [size pos]. split; [lia|]. specialize (Hnn i (or_introl eq_refl)). destruct (Z.leb_spec 1 i); [|assert (i = 0) by lia; subst i]; lia.
    + apply increasing_cons in Hi. destruct Hi as (Hi1 & Hi2). inversion Hr as [|? ? Hn Hr']; subst.
      destruct (Z.eq_dec n k) as [->|Hnk].
      * inversion Hrs as [|? e ? rs' He Hrs' E1 E2]; inversion Hc as [|? ci ? c' Hci Hc' E3 E4]; subst.
        replace (k - k) with 0 in * by lia. cbn in He, Hci. injection He as <-. injection Hci as <-.
        inversion Hb as [|? ? ? ? Hbi Hb' E5 E6]; subst.
        assert (Hk : Forall (fun n => k < n) xs) by (apply Forall_forall; intros m Hm; apply Hi2; exact Hm).
        destruct (IH idx (k + 1) xs rs' c') as (I1 & I2); try assumption; try (cbn in Hl; congruence).
        -- rewrite Forall_forall in *. intros m Hm. specialize (Hr' m Hm). specialize (Hk m Hm). lia.
        -- eapply Hsh; eassumption.
        -- eapply Hsh; eassumption.
        -- intros j Hj. apply Hnn. right. exact Hj.
        -- intros j Hj Hn'. specialize (H1 (j + 1) ltac:(lia)). rewrite znth_cons_pos in H1 by lia. replace (j + 1 - 1) with j in H1 by lia. apply H1.
           intros [E|E]; [lia|]. apply Hn'. replace (j + (k + 1)) with (j + 1 + k) by lia. exact E.
        -- cbn [size pos]. rewrite I1, I2. split; [reflexivity|]. destruct (Z.leb_spec d i); lia.
      * assert (Hk : Forall (fun m => k < m) (n :: xs)) by (constructor; [lia|]; apply Forall_forall; intros m Hm; specialize (Hi2 m Hm); lia).
        assert (E : znth (d :: rsh) 0 = Some 1).
        { apply H1; [lia|]. rewrite Forall_forall in Hk. intros Hin. specialize (Hk _ Hin). lia. }
        cbn in E. injection E as ->.
        destruct (IH idx (k + 1) (n :: xs) rs c) as (I1 & I2); try assumption; try (cbn in Hl; congruence).
        -- apply increasing_mk; assumption.
        -- rewrite Forall_forall in *. intros m Hm. specialize (Hr m Hm). specialize (Hk m Hm). lia.
        -- eapply Hsh; eassumption.
        -- eapply Hsh; eassumption.
        -- intros j Hj. apply Hnn. right. exact Hj.
        -- intros j Hj Hn'. specialize (H1 (j + 1) ltac:(lia)). rewrite znth_cons_pos in H1 by lia. replace (j + 1 - 1) with j in H1 by lia. apply H1.
           intros E. apply Hn'. replace (j + (k + 1)) with (j + 1 + k) by lia. exact E.
        -- rewrite I1, I2. split; [lia|]. specialize (Hnn i (or_introl eq_refl)). destruct (Z.leb_spec 1 i); [|assert (i = 0) by lia; subst i]; lia.
Qed.

Section AX.
  Context {P : Type} (M : methods P) (t : tower P) (hu : ntype -> bool).
  Local Notation sv := (sval P).

  (* the axis form when the argument of higher rank is hi *)
  Lemma axis_core (e2 : sv -> sv -> outcome sv) (hi lo : arr sv) xs (g : list Z -> sv) :
    wf hi -> wf lo -> increasing xs -> Forall2 (fun n d => znth (dims hi) n = Some d) xs (dims lo) ->
    (forall idx c, inb (dims hi) idx -> Forall2 (fun n i => znth idx n = Some i) xs c ->
        exists h l, elem hi idx = Some h /\ elem lo c = Some l /\ e2 h l = Ok (g idx)) ->
    exists r, (let* ic := NewIdxConverter (rightShape (length (dims hi)) xs (dims lo)) in
        let* res := fill (dims hi) (fun idx =>
            let* lv := At hi (ic_index (strides (dims hi)) idx) in
            let* rv := At lo (ic_index ic (clip idx (rightShape (length (dims hi)) xs (dims lo)))) in
            e2 lv rv) in
        finish M t hu res) = Ok r /\ is_array (dims hi) (fun idx => Some (g idx)) (view r).
  Proof.
    intros Whi Wlo Hi Hc H. pose proof Whi as (W1 & W2 & W3). pose proof Wlo as (V1 & V2 & V3).
    assert (Hlen : length xs = length (dims lo)) by (eapply Forall2_length; exact Hc).
    assert (Hrange : Forall (fun n => 0 <= n < Z.of_nat (length (dims hi))) xs).
    { apply Forall_forall. intros n Hn. apply In_znth in Hn. destruct Hn as (i & Hn).
      clear - Hc Hn. revert i Hn. induction Hc as [|m d xs ds E Hc IH]; intros i Hn; [apply znth_In in Hn; contradiction|].
      apply znth_In in Hn. destruct Hn as [<-|Hn]; [apply znth_some_range in E; unfold zlen in E; lia|]. apply In_znth in Hn. destruct Hn as (j & Hn). eapply IH; exact Hn. }
    destruct (rightShape_spec xs (dims lo) (length (dims hi)) Hlen Hi Hrange) as (R1 & R2 & R3).
    set (rsh := rightShape (length (dims hi)) xs (dims lo)) in *.
    clearbody rsh.
    assert (Hrsh : rsh <> []) by (intros E; rewrite E in R1; destruct (dims hi); [congruence|discriminate]).
    assert (Hni : NewIdxConverter rsh = Ok (strides rsh)) by (destruct rsh; [congruence|reflexivity]).
    rewrite Hni. cbn [obind].
    rewrite (fill_ok (dims hi) _ g W1 W2); cycle 1.
    { intros idx Hb.
      assert (Hcx : exists c, Forall2 (fun n i => znth idx n = Some i) xs c /\ inb (dims lo) c).
      { clear - Hc Hb. induction Hc as [|n d xs ds E Hc IH]; [exists []; split; constructor|].
        destruct IH as (c & I1 & I2). destruct (inb_coord _ _ _ _ Hb E) as (i & Ei & Li). exists (i :: c). split; constructor; assumption. }
      destruct Hcx as (c & Hcc & Hbc). destruct (H idx c Hb Hcc) as (h & l & Eh & El & Ee).
      rewrite (At_elem hi idx h Hb Eh). cbn [obind].
      pose proof (inb_length _ _ Hb) as Hbl. pose proof Hb as Hbb.
      assert (Hli : length rsh = length (clip idx rsh)) by (unfold clip; rewrite map_length, combine_length; lia).
      rewrite ic_index_pos by exact Hli.
      destruct (pos_clip rsh idx 0 xs (dims lo) c) as (Q1 & Q2).
      - lia.
      - exact Hi.
      - unfold zlen. rewrite R1. apply Forall_forall. rewrite Forall_forall in Hrange. intros n Hn. specialize (Hrange n Hn). lia.
      - clear - R2. induction R2; constructor; [rewrite Z.sub_0_r|]; assumption.
      - clear - Hcc. induction Hcc; constructor; [rewrite Z.sub_0_r|]; assumption.
      - exact Hbc.
      - clear - Hb. induction Hb as [|d i ds is_ Hd Hb IH]; [intros ? []|]. intros j [<-|Hj]; [lia|apply IH; exact Hj].
      - intros j Hj Hn. apply R3; [unfold zlen in Hj; lia|]. rewrite Z.add_0_r in Hn. exact Hn.
      - rewrite Q2. unfold At, zat. unfold elem in El. rewrite El. cbn [obind]. exact Ee. }
    cbn [obind]. destruct (finish_view M t hu (mkArr (dims hi) (map g (all_idx (dims hi))))) as (r & Hr & Hv); [intros _; apply wf_build; assumption|].
    exists r. split; [exact Hr|]. rewrite Hv. split; [apply wf_build; assumption|]. split; [reflexivity|]. intros idx Hb. apply elem_build. exact Hb.
  Qed.
End AX.
