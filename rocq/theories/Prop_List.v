(* Prop_List.v -- C16 (enlist), C56, C57, C79, C80, C81: nested lists.
   Vocabulary: S_List.v (paths into a list). *)
From Verif Require Import Base Eff P_Array M_List S_List P_List.
From Coq Require Import Sorted.
Open Scope Z_scope.

(* ------------------------------------------------------------------ C16 *)
(* the result of ∊ on a list contains exactly the leaves: there is an enumeration ps
   of all paths to leaves, in reading order (depth first, left to right), and the
   i-th element of the result is the leaf at the i-th path *)
Theorem C16_enlist {A} (l : list (lval A)) : exists ps xs, enlist (Lst l) = Lst (map Atom xs) /\
  StronglySorted before ps /\ (forall p x, at_path (Lst l) p (Atom x) -> In p ps) /\
  zlen ps = zlen xs /\ (forall i p x, znth ps i = Some p -> znth xs i = Some x -> at_path (Lst l) p (Atom x)).
Proof.
  destruct (leaf_paths (Lst l)) as (ps & xs & E & F & SS & All). exists ps, xs. unfold enlist. rewrite E. split; [reflexivity|].
  split; [exact SS|]. split; [exact All|]. split; [apply (Forall2_zlen _ _ _ F)|]. apply (Forall2_znth _ _ _ F).
Qed.
(* a value that is no list becomes a list of one element *)
Theorem C16_enlist_atom {A} (a : A) : enlist (Atom a) = Lst [Atom a].
Proof. reflexivity. Qed.
Theorem C16_enlist_idempotent {A} (v : lval A) : enlist (enlist v) = enlist v.
Proof.
  destruct v as [a|l]; [reflexivity|]. unfold enlist at 2 3. destruct (enlist_f_atoms (Lst l)) as [xs Hx]. rewrite Hx.
  unfold enlist. rewrite enlist_f_list. f_equal. clear. induction xs as [|x xs IH]; [reflexivity|]. cbn [map flat_map]. rewrite IH. reflexivity.
Qed.
Example C16_enlist_example : enlist (Lst [Atom 1; Lst [Atom 2; Lst [Atom 3]; Lst []]; Atom 4]) = Lst [Atom 1; Atom 2; Atom 3; Atom 4].
Proof. reflexivity. Qed.
Print Assumptions C16_enlist.

(* ------------------------------------------------------------------ C56 *)
(* reading: indexes i1;i2;.. of the user, origin o, negative ones counting from the end *)
Theorem C56_index {A} o is p (l : list (lval A)) : denotes o l is p ->
  exists w, at_path (Lst l) p w /\ listIndex o false (map single is) l = Ok w.
Proof.
  intros D. destruct (denotes_at _ _ _ _ D) as [w Hw]. exists w. split; [exact Hw|]. unfold listIndex. rewrite listSelection_ints.
  apply list_resolve_spec in D as E; [|apply (denotes_ne _ _ _ _ D)]. rewrite E. cbn [obind]. apply list_walk_spec, Hw.
Qed.
(* writing: afterwards the index holds the new value, every index path that neither
   contains it nor is contained in it holds what it held, and no list on the way
   changed its length *)
Theorem C56_assign {S A} o is p (l : list (lval A)) (R : lval A) (s : S) : denotes o l is p ->
  exists l', list_assign o false (map single is) None R l s = (Ok l', s) /\
    at_path (Lst l') p R /\ listIndex o false (map single is) l' = Ok R /\
    (forall q w, apart p q -> (at_path (Lst l') q w <-> at_path (Lst l) q w)) /\
    (forall q lq, prefix q p -> q <> p -> at_path (Lst l) q (Lst lq) -> exists lq', at_path (Lst l') q (Lst lq') /\ zlen lq' = zlen lq).
Proof.
  intros D. destruct (denotes_at _ _ _ _ D) as [w Hw]. pose proof (denotes_ne _ _ _ _ D) as [Nis Np].
  unfold list_assign. rewrite listSelection_ints. apply list_resolve_spec in D as E; [|exact Nis]. rewrite E.
  destruct (proj1 (SetDeep_defined p l R)) as [l' El']; [exists w; apply GetDeep_spec; split; assumption|].
  exists l'. unfold assignList, ebind, elift, eret. rewrite El'. split; [reflexivity|].
  pose proof (SetDeep_same _ _ _ _ El') as HR. split; [exact HR|].
  assert (D' : denotes o l' is p).
  { clear - D El'. revert l' El'. induction D as [l i k M|l i k l1 is p M Hk D IH]; intros l' El'; cbn [SetDeep] in El'.
    - destruct M as [R0 C]. rewrite (proj2 (range_dec _ _) R0) in El'. destruct (zat l k); [|discriminate..]. injection El' as <-.
      constructor. split; [rewrite zlen_zupd; exact R0|rewrite zlen_zupd; exact C].
    - destruct M as [R0 C]. rewrite (proj2 (range_dec _ _) R0) in El'. rewrite (proj2 (zat_ok _ _ _) Hk) in El'. cbn [obind] in El'.
      pose proof (denotes_ne _ _ _ _ D) as [_ Np]. destruct p as [|k2 p]; [congruence|].
      destruct (SetDeep l1 (k2 :: p) R) as [l2| |] eqn:E2; [|discriminate..]. injection El' as <-.
      apply den_step with l2; [split; rewrite zlen_zupd; assumption|apply znth_zupd_same; exact R0|]. apply IH. reflexivity. }
  split.
  { destruct (C56_index o is p l' D') as (w' & Hw' & Ei). rewrite Ei. f_equal. apply (at_path_fun _ _ _ _ Hw' HR). }
  split; [intros q v Hq; symmetry; apply (SetDeep_other _ _ _ _ _ _ El' Hq)|]. intros q lq. apply (SetDeep_len _ _ _ _ _ _ El').
Qed.
(* modified assignment L[i;j]f←R: f is called once with the old value on the left *)
Theorem C56_modified {S A} o is p (l : list (lval A)) f (R w : lval A) (s : S) : denotes o l is p -> at_path (Lst l) p w ->
  match f w R s with
  | (Ok x, s') => exists l', list_assign o false (map single is) (Some f) R l s = (Ok l', s') /\ SetDeep l p x = Ok l'
  | (Err, s') => list_assign o false (map single is) (Some f) R l s = (Err, s')
  | (Panic, s') => list_assign o false (map single is) (Some f) R l s = (Panic, s')
  end.
Proof.
  intros D Hw. pose proof (denotes_ne _ _ _ _ D) as [Nis Np].
  unfold list_assign. rewrite listSelection_ints. apply list_resolve_spec in D as E; [|exact Nis]. rewrite E.
  unfold ebind at 1 2 3, elift at 1 2 3. unfold assignList.
  assert (G : GetDeep l p = Ok w) by (apply GetDeep_spec; split; assumption). rewrite G. unfold ebind, elift.
  destruct (f w R s) as [[x| |] s']; [|reflexivity..].
  destruct (proj1 (SetDeep_defined p l x)) as [l' El']; [exists w; exact G|]. exists l'. rewrite El'. split; reflexivity.
Qed.
(* everything else is an error: an index out of range, too deep, of the wrong type or
   shape; there is then no changed list, and f is not called *)
Theorem C56_error {S A} o is (l : list (lval A)) (R : lval A) f (s : S) : (forall p, ~ denotes o l is p) -> is <> [] ->
  listIndex o false (map single is) l = Err /\ list_assign o false (map single is) f R l s = (Err, s).
Proof.
  intros H N. unfold listIndex, list_assign. rewrite listSelection_ints.
  destruct (list_resolve l (map (fun i => i - o) is)) as [p| |] eqn:E.
  - exfalso. apply list_resolve_spec in E; [|exact N]. exact (H _ E).
  - split; reflexivity.
  - exfalso. exact (list_resolve_nopanic _ _ E).
Qed.
Theorem C56_not_an_integer {S A} o spec (l : list (lval A)) (R : lval A) f (s : S) ds is :
  (forall x, In x spec -> x <> LIEmpty) -> (In LIBad spec \/ In (LIInts ds is) spec /\ ds <> [1]) ->
  (forall ds' is', In (LIInts ds' is') spec -> ds' = [1] -> zlen is' = 1) ->
  listIndex o false spec l = Err /\ list_assign o false spec f R l s = (Err, s).
Proof.
  intros H1 H2 H3. unfold listIndex, list_assign, listSelection. rewrite andb_false_r.
  assert (E : mapM (item_int o) spec = Err).
  { revert H1 H2 H3. induction spec as [|x spec IH]; intros H1 H2 H3; [destruct H2 as [[]|[[] _]]|]. cbn [mapM].
    assert (Hx : item_int o x = Err \/ exists i, item_int o x = Ok i /\ x <> LIBad /\ (forall ds' is', x = LIInts ds' is' -> ds' = [1])).
    { destruct x as [ds' is'| |]; [|exfalso; apply (H1 LIEmpty); [left; reflexivity|reflexivity]|left; reflexivity]. cbn [item_int].
      destruct ds' as [|d [|? ?]]; [left; reflexivity| |left; reflexivity]. destruct (d =? 1) eqn:Ed; [|left; reflexivity]. apply Z.eqb_eq in Ed. subst d. right.
      specialize (H3 [1] is' (or_introl eq_refl) eq_refl). destruct (znth_in_range is' 0) as [i Hi]; [lia|]. rewrite (proj2 (zat_ok _ _ _) Hi). cbn [obind].
      exists (i - o). split; [reflexivity|]. split; [discriminate|]. intros ? ? [= <- <-]. reflexivity. }
    destruct Hx as [->|(i & -> & Nb & Nd)]; [reflexivity|]. cbn [obind]. rewrite IH; [reflexivity| | |].
    - intros y Hy. apply H1. right. exact Hy.
    - destruct H2 as [[->|Hb]|[[->|Hb] Hne]]; [congruence|left; exact Hb|exfalso; apply Hne, (Nd _ _ eq_refl)|right; split; assumption].
    - intros ds' is' Hy. apply H3. right. exact Hy. }
  rewrite E. split; reflexivity.
Qed.
Example C56_example : denotes 1 [Atom 5; Lst [Atom 6; Atom 7]] [2; 0] [1; 1] /\
  listIndex 1 false (map single [2; 0]) [Atom 5; Lst [Atom 6; Atom 7]] = Ok (Atom 7) /\
  list_assign 1 false (map single [2; 0]) None (Atom 9) [Atom 5; Lst [Atom 6; Atom 7]] tt = (Ok [Atom 5; Lst [Atom 6; Atom 9]], tt) /\
  apart [1; 1] [1; 0].
Proof.
  split; [|split; [reflexivity|split; [reflexivity|]]].
  - apply den_step with [Atom 6; Atom 7]; [split; [cbn; lia|cbn; lia]|reflexivity|]. constructor. split; cbn; lia.
  - split; intros [r E]; discriminate.
Qed.
Print Assumptions C56_assign.
Print Assumptions C56_modified.
Print Assumptions C56_error.

(* ------------------------------------------------------------------ C57 *)
(* the index vector is written as is, its elements mean the positions ks (negative
   ones from the end).  With one index the result is the rest of the list from there
   on; with more, the list of the pieces. *)
Theorem C57_one {A} o i k (r : list (lval A)) : means o (zlen r) i k -> cut o (Some ([1], [i])) r = Ok (skipn (Z.to_nat k) r).
Proof.
  intros M. unfold cut. change (negb (zlen [1] =? 1)) with false. cbv iota.
  assert (E : cut_idx o (zlen r) None [i] = Ok [k]). { apply cut_idx_spec. split; [constructor; [exact M|constructor]|]. split; repeat constructor. }
  rewrite E. cbn [obind]. change (zlen [k] =? 1) with true. cbv iota. change (zat [k] 0) with (Ok k). cbn [obind]. destruct M as [R _].
  rewrite slice_ok by lia. f_equal. apply firstn_all2. rewrite skipn_length. unfold zlen in *. lia.
Qed.
Theorem C57_pieces {A} o is ks (r : list (lval A)) : Forall2 (means o (zlen r)) is ks -> StronglySorted Z.lt ks -> zlen is <> 1 ->
  exists ps, cut o (Some ([zlen is], is)) r = Ok (map Lst ps) /\ zlen ps = zlen is /\
    concat ps = match ks with [] => [] | k :: _ => skipn (Z.to_nat k) r end /\
    forall i k p, znth ks i = Some k -> znth ps i = Some p -> p <> [] /\ forall j, 0 <= j < zlen p -> znth p j = znth r (k + j).
Proof.
  intros F SS N. exists (pieces_of r ks). split; [apply cut_pieces; assumption|]. split; [rewrite pieces_len; symmetry; apply (Forall2_zlen _ _ _ F)|].
  assert (R : Forall (fun k => 0 <= k < zlen r) ks). { clear - F. induction F as [|i k is ks [H _] F IH]; constructor; [exact H|exact IH]. }
  split; [apply pieces_concat; assumption|]. intros i k p. apply pieces_elem; assumption.
Qed.
Theorem C57_error {A} o is (r : list (lval A)) : (forall ks, Forall2 (means o (zlen r)) is ks -> ~ StronglySorted Z.lt ks) ->
  cut o (Some ([zlen is], is)) r = Err.
Proof.
  intros H. unfold cut. change (negb (zlen [zlen is] =? 1)) with false. cbv iota. destruct (cut_idx o (zlen r) None is) as [ks| |] eqn:E; [|reflexivity|].
  - exfalso. apply cut_idx_spec in E as (F & SS & _). exact (H _ F SS).
  - exfalso. exact (cut_idx_nopanic _ _ _ _ E).
Qed.
Theorem C57_not_a_vector {A} o ds is (r : list (lval A)) : zlen ds <> 1 -> cut o (Some (ds, is)) r = Err.
Proof. intros H. unfold cut. rewrite (proj2 (Z.eqb_neq _ _) H). reflexivity. Qed.
Example C57_example : Forall2 (means 1 4) [2; -1] [1; 2] /\
  cut 1 (Some ([2], [2; -1])) [Atom 1; Atom 2; Atom 3; Atom 4] = Ok [Lst [Atom 2]; Lst [Atom 3; Atom 4]].
Proof. split; [repeat constructor; cbn; lia|reflexivity]. Qed.
Print Assumptions C57_pieces.
Print Assumptions C57_error.

(* ------------------------------------------------------------------ C79 *)
(* ≡L is the greatest number of lists that are nested in each other *)
Theorem C79_depth {A} isarr (l : list (lval A)) :
  (exists p l', at_path (Lst l) p (Lst l') /\ zlen p = depth isarr (Lst l) - 1) /\
  (forall p l', at_path (Lst l) p (Lst l') -> zlen p <= depth isarr (Lst l) - 1).
Proof. apply (Depth_path (Lst l) l eq_refl). Qed.
Theorem C79_depth_simple {A} (isarr : A -> bool) a : depth isarr (Atom a) = if isarr a then 1 else 0.
Proof. reflexivity. Qed.
Example C79_example : depth (fun _ => false) (Lst [Atom 1; Lst [Lst []; Atom 3]]) = 3.
Proof. reflexivity. Qed.
Print Assumptions C79_depth.

(* ------------------------------------------------------------------ C80 *)
(* the elements of the argument of a list catenation *)
Definition as_list {A} (v : lval A) : list (lval A) := match v with Lst l => l | Atom _ => [v] end.
Definition is_list {A} (v : lval A) : Prop := exists l, v = Lst l.
Theorem C80_catenate {A} (L R : lval A) : is_list L \/ is_list R -> catenateLists L R = Lst (as_list L ++ as_list R).
Proof. intros H. destruct L as [a|l], R as [b|r]; try reflexivity. destruct H as [[? ?]|[? ?]]; discriminate. Qed.
Theorem C80_assoc {A} (L M R : lval A) : is_list L \/ is_list M -> is_list M \/ is_list R ->
  catenateLists (catenateLists L M) R = catenateLists L (catenateLists M R).
Proof.
  intros H1 H2. rewrite (C80_catenate L M H1), (C80_catenate M R H2). rewrite !C80_catenate; [|right; eexists; reflexivity|left; eexists; reflexivity].
  cbn [as_list]. rewrite app_assoc. reflexivity.
Qed.
(* cutting at the length of the first part gives the second part back *)
Theorem C80_cut {A} o (l r : list (lval A)) : r <> [] -> exists c, catenateLists (Lst l) (Lst r) = Lst c /\ cut o (Some ([1], [o + zlen l])) c = Ok r.
Proof.
  intros N. exists (l ++ r). split; [reflexivity|]. rewrite (C57_one o _ (zlen l)).
  - f_equal. unfold zlen. rewrite Nat2Z.id. rewrite skipn_app, Nat.sub_diag. rewrite skipn_all. reflexivity.
  - split; [|left; lia]. pose proof (zlen_nonneg l). rewrite zlen_app. destruct r as [|x r]; [congruence|]. rewrite zlen_cons. pose proof (zlen_nonneg r). lia.
Qed.
(* enlisting a catenation is catenating what is enlisted *)
Theorem C80_enlist {A} (L R : lval A) : is_list L \/ is_list R -> enlist (catenateLists L R) = catenateLists (enlist L) (enlist R).
Proof.
  intros H. rewrite (C80_catenate _ _ H). unfold enlist at 1. rewrite enlist_f_list, flat_map_app.
  assert (G : forall v : lval A, enlist v = Lst (flat_map enlist_f (as_list v))).
  { intros [a|l]; [reflexivity|]. unfold enlist. rewrite enlist_f_list. reflexivity. }
  rewrite (G L), (G R). reflexivity.
Qed.
Theorem C80_first {A} (e : A) (l : list (lval A)) : first e l = match l with [] => Atom e | x :: _ => x end.
Proof. destruct l; reflexivity. Qed.
Example C80_example : catenateLists (Lst [Atom 1]) (Atom 2) = Lst [Atom 1; Atom 2] /\ is_list (Lst [Atom 1]).
Proof. split; [reflexivity|eexists; reflexivity]. Qed.
Print Assumptions C80_catenate.

(* ------------------------------------------------------------------ C81 *)
(* f¨L calls f once for every element, first to last, and returns the list of the
   results; the first failure ends it.  Effects are in the state s. *)
Theorem C81_each {S A} (f : lval A -> eff S (lval A)) (l : list (lval A)) (s : S) :
  eachList f l s = match l with
                   | [] => (Ok [], s)
                   | x :: l' => match f x s with
                                | (Ok y, s1) => match eachList f l' s1 with
                                                | (Ok ys, s2) => (Ok (y :: ys), s2)
                                                | r => r
                                                end
                                | (Err, s1) => (Err, s1)
                                | (Panic, s1) => (Panic, s1)
                                end
                   end.
Proof.
  destruct l as [|x l]; [reflexivity|]. unfold eachList. cbn [mapE]. unfold ebind, eret. destruct (f x s) as [[y| |] s1]; [|reflexivity..].
  destruct (mapE f l s1) as [[ys| |] s2]; reflexivity.
Qed.
(* dyadic: two lists of equal length are paired *)
Theorem C81_each2 {S A} (f : lval A -> lval A -> eff S (lval A)) (l r : list (lval A)) (s : S) : zlen l = zlen r ->
  eachList2 f (Lst l) (Lst r) s = mapE (fun '(x, y) => f x y) (combine l r) s.
Proof.
  intros H. unfold eachList2. rewrite (proj2 (Z.eqb_eq _ _) (eq_sym H)). cbn [negb].
  assert (G : forall pl pr sl sr, zlen pl = zlen pr -> zlen sl = zlen sr -> pl ++ sl = l -> pr ++ sr = r -> forall s,
    mapE (fun i => let! lv := elift (zat l i) in let! rv := elift (zat r i) in f lv rv) (map (fun i => zlen pl + i) (zseq (zlen sl))) s =
    mapE (fun '(x, y) => f x y) (combine sl sr) s).
  { intros pl pr sl. revert pl pr. induction sl as [|x sl IH]; intros pl pr sr Hp Hs El Er t; [reflexivity|].
    destruct sr as [|y sr]; [rewrite zlen_cons in Hs; change (zlen []) with 0 in Hs; pose proof (zlen_nonneg sl); lia|].
    rewrite !zlen_cons in Hs. rewrite zlen_cons. pose proof (zlen_nonneg sl). rewrite zseq_cons by lia. replace (1 + zlen sl - 1) with (zlen sl) by lia.
    cbn [map combine mapE]. rewrite Z.add_0_r.
    assert (Hx : zat l (zlen pl) = Ok x) by (apply zat_ok; rewrite <- El, znth_app_r, Z.sub_diag by lia; apply znth_cons_0).
    assert (Hy : zat r (zlen pl) = Ok y) by (apply zat_ok; rewrite <- Er, Hp, znth_app_r, Z.sub_diag by lia; apply znth_cons_0).
    apply ebind_ext.
    - unfold ebind, elift. rewrite Hx, Hy. reflexivity.
    - intros v u. apply ebind_ext; [|reflexivity]. specialize (IH (pl ++ [x]) (pr ++ [y]) sr). rewrite !zlen_app, <- !app_assoc in IH.
      change (zlen [x]) with 1 in IH. change (zlen [y]) with 1 in IH. rewrite map_map. rewrite <- IH; [|lia..|exact El|exact Er].
      apply (f_equal (fun w => mapE _ w u)). apply map_ext. intros. lia. }
  specialize (G [] [] l r eq_refl H eq_refl eq_refl s). change (zlen []) with 0 in G.
  rewrite map_ext_in with (g := fun i => i) in G by (intros; lia). rewrite map_id in G. exact G.
Qed.
Theorem C81_each2_lengths {S A} (f : lval A -> lval A -> eff S (lval A)) (l r : list (lval A)) (s : S) : zlen l <> zlen r -> eachList2 f (Lst l) (Lst r) s = (Err, s).
Proof. intros H. unfold eachList2. rewrite (proj2 (Z.eqb_neq _ _)) by congruence. reflexivity. Qed.
(* finding: a simple left argument is not extended to a right list *)
Theorem C81_simple_left_rejected {S A} (f : lval A -> lval A -> eff S (lval A)) a (r : list (lval A)) (s : S) : r <> [] -> eachList2 f (Atom a) (Lst r) s = (Err, s).
Proof. intros H. unfold eachList2. destruct r as [|x r]; [congruence|]. rewrite zlen_cons. pose proof (zlen_nonneg r). rewrite (proj2 (Z.eqb_neq _ _)) by lia. reflexivity. Qed.
Example C81_example : eachList (fun v s => (Ok (Lst [v]), v :: s)) [Atom 1; Atom 2] [] = (Ok [Lst [Atom 1]; Lst [Atom 2]], [Atom 2; Atom 1]).
Proof. reflexivity. Qed.
Print Assumptions C81_each2.
