(* Prop_Stencil.v -- C123: stencil; C124: roll and deal. *)
From Coq Require Import Lia ZArith Permutation.
From Verif Require Import Base M_Array S_Array P_Array M_Structural Eff M_Operators P_Operators M_Stencil S_Stencil P_Stencil.
Ltac Zify.zify_post_hook ::= Z.to_euclidean_division_equations.

Lemma skipn_skipn {X} (n m : nat) (l : list X) : skipn n (skipn m l) = skipn (m + n) l.
Proof. revert l. induction m as [|m IH]; intros l; [reflexivity|]. destruct l; [cbn; destruct n; reflexivity|]. cbn. apply IH. Qed.
Lemma overwrite_ok vs : forall def k, 0 <= k -> k + zlen vs <= zlen def ->
  st_overwrite def k vs = Ok (firstn (Z.to_nat k) def ++ vs ++ skipn (Z.to_nat k + length vs) def).
Proof.
  induction vs as [|v vs IH]; intros def k Hk Hl.
  - cbn [st_overwrite length app]. rewrite Nat.add_0_r, firstn_skipn. reflexivity.
  - cbn [st_overwrite]. rewrite zlen_cons in Hl. pose proof (zlen_nonneg vs).
    replace ((0 <=? k) && (k <? zlen def)) with true by lia.
    rewrite IH by (try rewrite zlen_zupd; lia). f_equal.
    replace (Z.to_nat (k + 1)) with (S (Z.to_nat k)) by lia.
    assert (E : zupd def k v = firstn (Z.to_nat k) def ++ v :: skipn (S (Z.to_nat k)) def).
    { unfold zupd. replace (k <? 0) with false by lia. assert (X : (Z.to_nat k < length def)%nat) by (unfold zlen in *; lia). revert X.
      generalize (Z.to_nat k). clear. intros n. revert def. induction n as [|n IH]; intros [|x def] H; cbn [length] in H; try lia; cbn; [reflexivity|].
      f_equal. apply IH. lia. }
    rewrite E. assert (L : length (firstn (Z.to_nat k) def) = Z.to_nat k) by (rewrite firstn_length; unfold zlen in *; lia).
    rewrite firstn_app, L. replace (S (Z.to_nat k) - Z.to_nat k)%nat with 1%nat by lia. rewrite (firstn_all2 (n := S (Z.to_nat k))) by lia. cbn [firstn].
    rewrite <- app_assoc. cbn [app]. f_equal. f_equal. f_equal.
    rewrite skipn_app, L. rewrite (skipn_all2 (n := (S (Z.to_nat k) + length vs)%nat)) by lia. cbn [app].
    replace (S (Z.to_nat k) + length vs - Z.to_nat k)%nat with (S (length vs)) by lia. cbn [skipn length].
    change (match def with [] => [] | _ :: l => skipn (Z.to_nat k) l end) with (skipn (S (Z.to_nat k)) def). rewrite skipn_skipn. f_equal. lia.
Qed.
Lemma firstn_repeat {X} (x : X) n m : (n <= m)%nat -> firstn n (repeat x m) = repeat x n.
Proof. revert m. induction n as [|n IH]; intros [|m] H; try lia; cbn; [reflexivity|reflexivity|]. f_equal. apply IH. lia. Qed.
Lemma skipn_repeat {X} (x : X) n m : skipn n (repeat x m) = repeat x (m - n).
Proof. revert m. induction n as [|n IH]; intros [|m]; cbn; try reflexivity. apply IH. Qed.
Lemma st_window_axes rank ro w : window_axes (Z.of_nat rank) ro w -> (1 <= rank)%nat ->
  zlen (dims ro) <= 2 /\ last (dims ro) 0 <= Z.of_nat rank /\ st_window rank ro = Ok w /\ length w = rank.
Proof.
  intros ((Hne & Hnn & Hl) & H) Hk. unfold st_window.
  assert (O : zlen (elems ro) <= 2 * Z.of_nat rank -> st_overwrite (repeat 1 (2 * rank)) 0 (elems ro) = Ok (elems ro ++ repeat 1 (2 * rank - length (elems ro)))).
  { intros B. rewrite overwrite_ok by (try rewrite zlen_repeat; lia). change (Z.to_nat 0) with 0%nat. cbn [firstn app Nat.add]. rewrite skipn_repeat. reflexivity. }
  destruct H as [(c & D & C & ->)|(r & D & C & ->)]; rewrite D in *; cbn [last size] in *.
  - split; [unfold zlen; cbn; lia|]. split; [lia|]. rewrite Z.mul_1_r in Hl. inversion Hnn as [|? ? C0 _]; subst.
    rewrite O by lia. cbn [obind]. split.
    + f_equal. rewrite firstn_app. rewrite firstn_all2 by (unfold zlen in *; lia). f_equal. rewrite firstn_repeat by (unfold zlen in *; lia). f_equal. unfold zlen in *. lia.
    + rewrite app_length, repeat_length. unfold zlen in *. lia.
  - split; [unfold zlen; cbn; lia|]. split; [lia|]. rewrite O by (unfold zlen in *; nia). cbn [obind]. rewrite Nat2Z.id. unfold zlen in Hl.
    assert (rank <= length (elems ro))%nat by nia. split.
    + f_equal. rewrite firstn_app. replace (rank - length (elems ro))%nat with 0%nat by lia. cbn [firstn]. rewrite app_nil_r. reflexivity.
    + rewrite firstn_length. lia.
Qed.
Lemma size_pos w : Forall (fun d => 0 < d) w -> 0 < size w.
Proof. induction 1 as [|d w D _ IH]; cbn [size]; [lia|nia]. Qed.

(* The function is called once for each element of the array, in row-major order, with the
   window around it, filled with zeros outside of the array; its results are the array of the
   same shape; the first error ends it. *)
Theorem C123_windows {S A} (zero : A) (f : arr Z -> arr A -> eff S (val A)) ro (a : arr A) w (win : list Z -> arr A) s :
  wf a -> window_axes (zlen (dims a)) ro w -> Forall (fun d => 0 < d) w ->
  (forall p, inb (dims a) p -> window_at zero a w p (win p)) ->
  stencil zero f (Some ro) (Arr a) s
  = (let! l := mapE (fun p => let! v := f (vec (center_offset w p)) (win p) in
                              match v with Scal x => eret x | _ => efail end) (all_idx (dims a)) in
     eret (Arr (mkArr (dims a) l))) s.
Proof.
  intros Wa X Hw Hwin. pose proof Wa as (Hne & Hnn & Hl).
  assert (Hk : (1 <= length (dims a))%nat) by (destruct (dims a); [congruence|cbn; lia]).
  destruct (st_window_axes (length (dims a)) ro w X Hk) as (E1 & E2 & E3 & E4).
  unfold stencil. replace (2 <? zlen (dims ro)) with false by lia.
  replace (zlen (dims a) <? last (dims ro) 0) with false by (unfold zlen in *; lia).
  unfold ebind at 1, elift at 1. rewrite E3.
  assert (Wne : w <> []) by (destruct w; [cbn in E4; lia|discriminate]). pose proof (size_pos w Hw) as Hs. rewrite Prod_size by exact Wne.
  replace (size w <? 0) with false by lia. replace (size w =? 0) with false by lia.
  unfold ebind at 1, elift at 1, NewIdxConverter. destruct (dims a) as [|d0 ds0] eqn:Ed; [congruence|]. rewrite <- Ed in *.
  apply ebind_ext; [|reflexivity].
  rewrite (st_cells_map zero f a Wa w Hw E4 Hs Wne (zseq (zlen (elems a))) (all_idx (dims a))).
  - apply mapE_ext. intros p t Hp. apply In_all_idx in Hp. unfold st_call.
    rewrite (window_unique zero a w p (window zero a w p) (win p)); [|apply window_spec; assumption|apply Hwin; exact Hp].
    replace (mkArr [zlen (dims a)] (center_offset w p)) with (vec (center_offset w p)); [reflexivity|].
    unfold vec. f_equal. f_equal. unfold center_offset. rewrite zlen_map. pose proof (inb_length _ _ Hp). unfold zlen. rewrite combine_length. lia.
  - apply Forall2_from_znth; [rewrite zlen_zseq, zlen_all_idx by exact Hnn; pose proof (zlen_nonneg (elems a)); lia|].
    intros i x y Hx Hy. pose proof (znth_some_range _ _ _ Hx) as R. rewrite zlen_zseq in R. rewrite znth_zseq in Hx by lia. injection Hx as <-.
    destruct (ic_indexes_spec (dims a) i Hnn ltac:(lia)) as (idx & I1 & I2 & I3). rewrite I1.
    pose proof (znth_all_idx _ _ I2) as Z. rewrite I3, Hy in Z. injection Z as ->. split; [reflexivity|exact I2].
Qed.
Print Assumptions C123_windows.

(* An empty window, more columns than axes and a scalar are errors, and f is not called. *)
Lemma size_In0 (w : list Z) : In 0 w -> size w = 0.
Proof. induction w as [|d w IH]; intros []; cbn [size]; [subst; reflexivity|rewrite IH by assumption; apply Z.mul_0_r]. Qed.
Theorem C123_errors {S A} (zero : A) (f : arr Z -> arr A -> eff S (val A)) ro (a : arr A) w x s :
  (wf a -> window_axes (zlen (dims a)) ro w -> In 0 w -> stencil zero f (Some ro) (Arr a) s = (Err, s))
  /\ (zlen (dims a) < last (dims ro) 0 -> stencil zero f (Some ro) (Arr a) s = (Err, s))
  /\ stencil zero f (Some ro) (Scal x) s = (Err, s).
Proof.
  split; [|split].
  - intros (Hne & Hnn & Hl) X Hw.
    assert (Hk : (1 <= length (dims a))%nat) by (destruct (dims a); [congruence|cbn; lia]).
    destruct (st_window_axes (length (dims a)) ro w X Hk) as (E1 & E2 & E3 & E4).
    unfold stencil. replace (2 <? zlen (dims ro)) with false by lia.
    replace (zlen (dims a) <? last (dims ro) 0) with false by (unfold zlen in *; lia).
    unfold ebind at 1, elift at 1. rewrite E3.
    assert (Wne : w <> []) by (destruct w; [destruct Hw|discriminate]). rewrite Prod_size by exact Wne. rewrite (size_In0 w Hw). reflexivity.
  - intros H. unfold stencil. destruct (2 <? zlen (dims ro)); [reflexivity|]. replace (zlen (dims a) <? last (dims ro) 0) with true by lia. reflexivity.
  - reflexivity.
Qed.
Print Assumptions C123_errors.

(* The left argument tells the number of fill elements for arrays of the size of the window: on
   each axis, positive before the array, negative after it. *)
Lemma count_zseq (P : Z -> bool) n : zlen (filter P (zseq (n + 1))) = zlen (filter P (zseq n)) + (if (0 <=? n) && P n then 1 else 0).
Proof.
  destruct (Z.le_gt_cases 0 n) as [H|H].
  - rewrite zseq_succ by exact H. rewrite filter_app, zlen_app. cbn [filter]. replace (0 <=? n) with true by lia. cbn [andb]. destruct (P n); reflexivity.
  - rewrite !zseq_nil by lia. replace (0 <=? n) with false by lia. reflexivity.
Qed.
Lemma count_lt b n : 0 <= n -> zlen (filter (fun q => q <? b) (zseq n)) = Z.max 0 (Z.min n b).
Proof.
  intros H. revert n H. apply natlike_ind; [unfold zlen; cbn; lia|]. intros n H IH. rewrite <- Z.add_1_r, count_zseq, IH.
  replace (0 <=? n) with true by lia. cbn [andb]. destruct (Z.ltb_spec n b); lia.
Qed.
Lemma count_ge b n : 0 <= n -> zlen (filter (fun q => b <=? q) (zseq n)) = Z.max 0 (Z.min n (n - b)).
Proof.
  intros H. revert n H. apply natlike_ind; [unfold zlen; cbn; lia|]. intros n H IH. rewrite <- Z.add_1_r, count_zseq, IH.
  replace (0 <=? n) with true by lia. cbn [andb]. destruct (Z.leb_spec b n); lia.
Qed.
Theorem C123_left_argument_partial w p k d i : znth w k = Some d -> znth p k = Some i -> 0 <= i < d ->
  znth (center_offset w p) k = Some (before d i - after d d i).
Proof.
  intros Hd Hi Hr. unfold center_offset. rewrite znth_map, (P_Transpose.znth_combine w p k d i Hd Hi). cbn [option_map fst snd]. f_equal.
  unfold before, after.
  rewrite (filter_ext (fun q => i + q - d / 2 <? 0) (fun q => q <? d / 2 - i)) by (intros q; lia).
  rewrite (filter_ext (fun q => d <=? i + q - d / 2) (fun q => d + d / 2 - i <=? q)) by (intros q; lia).
  rewrite count_lt, count_ge by lia. lia.
Qed.
(* For larger arrays it does not: no cell of the window of width 3 around the third of five
   elements is a fill element, the left argument is ¯1. *)
Theorem C123_left_argument_refuted : center_offset [3] [2] = [-1] /\ before 3 2 = 0 /\ after 3 5 2 = 0.
Proof. vm_compute. repeat split. Qed.
(* Fewer columns than axes are only right for vectors: a matrix of one column for an array of two
   axes puts the movement into the window.  The movement itself is never used, and an empty
   right operand panics. *)
Theorem C123_columns_refuted : st_window 2 (mkArr [2; 1] [3; 2]) = Ok [3; 2] /\ st_window 2 (mkArr [1] [3]) = Ok [3; 1].
Proof. vm_compute. split; reflexivity. Qed.
Theorem C123_movement_refuted {S A} (zero : A) (f : arr Z -> arr A -> eff S (val A)) (a : arr A) w m1 m2 s :
  wf a -> Forall (fun d => 0 < d) w -> zlen w = zlen (dims a) -> zlen m1 = zlen w -> zlen m2 = zlen w ->
  stencil zero f (Some (mkArr [2; zlen w] (w ++ m1))) (Arr a) s = stencil zero f (Some (mkArr [2; zlen w] (w ++ m2))) (Arr a) s.
Proof.
  intros Wa Hw L L1 L2.
  assert (X : forall m, zlen m = zlen w -> window_axes (zlen (dims a)) (mkArr [2; zlen w] (w ++ m)) w).
  { intros m Lm. split; [split; [discriminate|split; [repeat constructor; pose proof (zlen_nonneg w); lia|cbn [elems dims size]; rewrite zlen_app; lia]]|].
    right. exists 2. cbn [dims elems]. rewrite L. split; [reflexivity|]. split; [lia|]. rewrite <- L. unfold zlen. rewrite Nat2Z.id, firstn_app, firstn_all, Nat.sub_diag. cbn. rewrite app_nil_r. reflexivity. }
  rewrite !(C123_windows zero f _ a w (window zero a w)); try apply X; try assumption; try reflexivity;
    intros p Hp; apply window_spec; try assumption; unfold zlen in L; lia.
Qed.
Theorem C123_empty_refuted {S A} (zero : A) (f : arr Z -> arr A -> eff S (val A)) (a : arr A) s : stencil zero f None (Arr a) s = (Panic, s).
Proof. reflexivity. Qed.

(* {+/,⍵}⌺3 3 of a matrix *)
Definition sumf : arr Z -> arr Z -> eff unit (val Z) := fun _ a => eret (Scal (fold_left Z.add (elems a) 0)).
Example C123_example :
  window_axes 2 (mkArr [2] [3; 3]) [3; 3]
  /\ window_at 0 (mkArr [2; 3] [1; 2; 3; 4; 5; 6]) [3; 3] [0; 2] (window 0 (mkArr [2; 3] [1; 2; 3; 4; 5; 6]) [3; 3] [0; 2])
  /\ elems (window 0 (mkArr [2; 3] [1; 2; 3; 4; 5; 6]) [3; 3] [0; 2]) = [0; 0; 0; 2; 3; 0; 5; 6; 0]
  /\ stencil 0 sumf (Some (mkArr [2] [3; 3])) (Arr (mkArr [2; 3] [1; 2; 3; 4; 5; 6])) tt
     = (Ok (Arr (mkArr [2; 3] [12; 21; 16; 12; 21; 16])), tt).
Proof.
  split; [split; [split; [discriminate|split; [repeat constructor; lia|reflexivity]]|left; exists 2; repeat split; lia]|].
  split; [|split; vm_compute; reflexivity].
  apply window_spec; [split; [discriminate|split; [repeat constructor; lia|reflexivity]]|repeat constructor; lia|reflexivity|repeat constructor; lia].
Qed.

(* ---------- C124: deal and roll ---------- *)
Lemma NoDup_app_remove_r {X} (l m : list X) : NoDup (l ++ m) -> NoDup l.
Proof.
  induction l as [|x l IH]; intros H; [constructor|]. inversion H as [|? ? H1 H2]; subst. constructor; [|apply IH; exact H2].
  intros I. apply H1. apply in_or_app. left. exact I.
Qed.
Lemma Permutation_extend (q : list Z) : forall l, NoDup q -> NoDup l -> incl q l -> exists t, Permutation (q ++ t) l.
Proof.
  induction q as [|x q IH]; intros l NQ NL I; [exists l; apply Permutation_refl|].
  inversion NQ as [|? ? X Q]; subst. destruct (in_split x l (I x (or_introl eq_refl))) as (l1 & l2 & ->).
  destruct (IH (l1 ++ l2)) as (t & T); [exact Q|apply NoDup_remove_1 in NL; exact NL| |].
  - intros y Hy. pose proof (I y (or_intror Hy)) as J. apply in_app_iff in J. apply in_app_iff. destruct J as [J|[J|J]]; [left; exact J|congruence|right; exact J].
  - exists t. cbn [app]. apply Permutation_cons_app. exact T.
Qed.
(* n distinct numbers of the m numbers from the origin, whatever the permutation is *)
Theorem C124_deal origin n m p : 1 <= n <= m -> Permutation p (zseq m) ->
  exists r, deal origin n m p = Ok (vec r) /\ zlen r = n /\ NoDup r /\ (forall x, In x r -> origin <= x < origin + m).
Proof.
  intros H P. assert (L : length p = Z.to_nat m) by (rewrite (Permutation_length P); unfold zseq; rewrite map_length, seq_length; reflexivity).
  exists (map (fun x => x + origin) (firstn (Z.to_nat n) p)). unfold deal. replace ((n <=? 0) || (m <? n)) with false by lia.
  assert (Z : zlen (map (fun x => x + origin) (firstn (Z.to_nat n) p)) = n) by (rewrite zlen_map; unfold zlen; rewrite firstn_length; lia).
  split; [unfold vec; rewrite Z; reflexivity|]. split; [exact Z|].
  assert (ND : NoDup p) by (eapply Permutation_NoDup; [apply Permutation_sym; exact P|apply NoDup_zseq]).
  split.
  - apply FinFun.Injective_map_NoDup; [intros x y E; lia|]. rewrite <- (firstn_skipn (Z.to_nat n) p) in ND. apply NoDup_app_remove_r in ND. exact ND.
  - intros x Hx. apply in_map_iff in Hx. destruct Hx as (y & <- & Hy).
    assert (I : In y p) by (rewrite <- (firstn_skipn (Z.to_nat n) p); apply in_or_app; left; exact Hy).
    apply (Permutation_in _ P), In_zseq in I. lia.
Qed.
(* all of them if n is m; every selection may be dealt; nothing else is accepted *)
Theorem C124_deal_all origin m p : 1 <= m -> Permutation p (zseq m) ->
  exists r, deal origin m m p = Ok (vec r) /\ Permutation r (map (fun x => x + origin) (zseq m)).
Proof.
  intros H P. assert (L : length p = Z.to_nat m) by (rewrite (Permutation_length P); unfold zseq; rewrite map_length, seq_length; reflexivity).
  unfold deal. replace ((m <=? 0) || (m <? m)) with false by lia. rewrite firstn_all2 by lia.
  exists (map (fun x => x + origin) p). split; [|apply Permutation_map; exact P].
  unfold vec. rewrite zlen_map. unfold zlen. rewrite L, Z2Nat.id by lia. reflexivity.
Qed.
Theorem C124_deal_any origin m r : r <> [] -> NoDup r -> (forall x, In x r -> origin <= x < origin + m) ->
  exists p, Permutation p (zseq m) /\ deal origin (zlen r) m p = Ok (vec r).
Proof.
  intros Hne ND Hr. set (q := map (fun x => x - origin) r).
  assert (NQ : NoDup q) by (apply FinFun.Injective_map_NoDup; [intros x y E; lia|exact ND]).
  assert (IQ : incl q (zseq m)).
  { intros y Hy. apply in_map_iff in Hy. destruct Hy as (x & <- & Hx). apply In_zseq. pose proof (Hr x Hx). lia. }
  assert (LQ : length q = length r) by apply map_length.
  destruct (Permutation_extend q (zseq m) NQ (NoDup_zseq m) IQ) as (t & Ht).
  exists (q ++ t). split; [exact Ht|].
  assert (Lr : 1 <= zlen r) by (destruct r; [congruence|rewrite zlen_cons; pose proof (zlen_nonneg r); lia]).
  assert (Lm : zlen r <= m).
  { pose proof (NoDup_incl_length NQ IQ) as X. unfold zseq in X. rewrite map_length, seq_length in X. unfold zlen in *. lia. }
  unfold deal. replace ((zlen r <=? 0) || (m <? zlen r)) with false by lia. unfold vec. f_equal. f_equal.
  unfold zlen. rewrite Nat2Z.id, <- LQ, firstn_app, firstn_all, Nat.sub_diag. cbn [firstn]. rewrite app_nil_r. unfold q. rewrite map_map.
  rewrite <- (map_id r) at 2. apply map_ext. intros x. lia.
Qed.
Theorem C124_deal_refused origin n m p : n <= 0 \/ m < n -> deal origin n m p = Err.
Proof. intros H. unfold deal. replace ((n <=? 0) || (m <? n)) with true by lia. reflexivity. Qed.

(* rolling positive whole numbers gives one of the numbers from the origin up to it for each of
   them, with the same shape, for every generator that keeps its range *)
Section RollSpec.
  Context {S A : Type} (isNumber isNegFloat isComplex : A -> bool) (toIndex : A -> option Z) (ofInt : Z -> A)
          (intn : Z -> S -> Z * S) (float64 : S -> A * S) (norm : A -> S -> A * S) (origin : Z).
  Definition dice (x : A) (m : Z) : Prop := isNumber x = true /\ isNegFloat x = false /\ isComplex x = false /\ toIndex x = Some m /\ 0 < m.
  Notation roll := (roll isNumber isNegFloat isComplex toIndex ofInt intn float64 norm origin).
  Theorem C124_roll (a : arr A) (ms : list Z) s : (forall m t, 0 < m -> 0 <= fst (intn m t) < m) ->
    elems a <> [] -> Forall2 dice (elems a) ms ->
    exists r is s', roll (Arr a) s = (Ok (Arr r), s') /\ dims r = dims a /\ elems r = map ofInt is
      /\ Forall2 (fun m i => origin <= i < origin + m) ms is.
  Proof.
    intros G Hne H. unfold M_Stencil.roll.
    replace (zlen (elems a) =? 0) with false by (destruct (elems a); [congruence|]; rewrite zlen_cons; pose proof (zlen_nonneg l); lia).
    assert (K : exists is s', mapE (fun x => if isNumber x then rollNumber isNegFloat isComplex toIndex ofInt intn float64 norm origin x else efail) (elems a) s = (Ok (map ofInt is), s')
      /\ Forall2 (fun m i => origin <= i < origin + m) ms is).
    { clear Hne. revert s. induction H as [|x m l ms (D1 & D2 & D3 & D4 & D5) _ IH]; intros s.
      - exists [], s. split; [reflexivity|constructor].
      - cbn [mapE]. rewrite D1. unfold ebind at 1. unfold rollNumber at 1. rewrite D2, D3, D4.
        replace (m <? 0) with false by lia. replace (m =? 0) with false by lia. unfold ebind at 1, draw at 1.
        pose proof (G m s D5) as R. destruct (intn m s) as [i s1]. cbn [fst] in R. unfold eret at 1.
        destruct (IH s1) as (is & s' & E & F). unfold ebind at 1. rewrite E. exists ((i + origin) :: is), s'. split; [reflexivity|]. constructor; [lia|exact F]. }
    destruct K as (is & s' & E & F). unfold ebind. rewrite E. exists (mkArr (dims a) (map ofInt is)), is, s'. repeat split. exact F.
  Qed.
  Theorem C124_roll_scalar x m s : (forall m t, 0 < m -> 0 <= fst (intn m t) < m) -> dice x m ->
    exists i s', roll (Scal x) s = (Ok (Scal (ofInt i)), s') /\ origin <= i < origin + m.
  Proof.
    intros G (D1 & D2 & D3 & D4 & D5). unfold M_Stencil.roll, rollNumber. rewrite D1, D2, D3, D4.
    replace (m <? 0) with false by lia. replace (m =? 0) with false by lia. unfold ebind, draw.
    pose proof (G m s D5) as R. destruct (intn m s) as [i s1]. cbn [fst] in R. exists (i + origin), s1. split; [reflexivity|lia].
  Qed.
  (* zero gives a number of the uniform generator *)
  Theorem C124_roll_zero x s : isNumber x = true -> isNegFloat x = false -> isComplex x = false -> toIndex x = Some 0 ->
    roll (Scal x) s = (Ok (Scal (fst (float64 s))), snd (float64 s)).
  Proof. intros D1 D2 D3 D4. unfold M_Stencil.roll, rollNumber. rewrite D1, D2, D3, D4. unfold ebind, draw. cbn. destruct (float64 s). reflexivity. Qed.
End RollSpec.
Print Assumptions C124_roll.
Example C124_example : deal 1 3 5 [4; 0; 2; 1; 3] = Ok (vec [5; 1; 3]) /\ Permutation [4; 0; 2; 1; 3] (zseq 5)
  /\ deal 1 6 5 [] = Err.
Proof.
  split; [reflexivity|]. split; [|reflexivity]. change (zseq 5) with [0; 1; 2; 3; 4].
  apply NoDup_Permutation; [repeat constructor; cbn; lia|repeat constructor; cbn; lia|]. intros x. cbn. lia.
Qed.
