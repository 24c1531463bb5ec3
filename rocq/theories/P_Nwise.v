(* P_Nwise.v -- proofs about n-wise reduction. *)
From Verif Require Import Base M_Array S_Array S_Structural P_Array M_Structural
  P_Reverse P_Transpose P_Comma Eff S_Reduce M_Reduce P_Reduce.

(* one window *)
Definition win_at {A} (n i : Z) (l : list A) : list A := firstn (Z.to_nat n) (skipn (Z.to_nat i) l).

Lemma skipn_zupd {A} (l : list A) i v k : 0 <= i < k -> skipn (Z.to_nat k) (zupd l i v) = skipn (Z.to_nat k) l.
Proof.
  intros H. apply nth_error_ext_eq. intros q.
  assert (E : forall (m : list A), nth_error (skipn (Z.to_nat k) m) q = znth m (Z.of_nat q + k)).
  { intros m. pose proof (znth_skipn m (Z.to_nat k) (Z.of_nat q)) as H1. unfold znth at 1 in H1.
    replace (Z.of_nat q <? 0) with false in H1 by lia. rewrite Nat2Z.id in H1. rewrite H1 by lia. f_equal. lia. }
  rewrite !E. apply znth_zupd_other. lia.
Qed.
Lemma firstn_succ_zupd {A} (l : list A) i v : 0 <= i < zlen l ->
  firstn (Z.to_nat (i + 1)) (zupd l i v) = firstn (Z.to_nat i) l ++ [v].
Proof.
  intros H. apply znth_ext.
  - rewrite zlen_app. unfold zlen in *. rewrite !firstn_length. cbn [length].
    pose proof (zlen_zupd l i v) as Hz. unfold zlen in Hz. lia.
  - intros q Hq.
    assert (Hq2 : 0 <= q < i + 1).
    { unfold zlen in Hq. rewrite firstn_length in Hq. lia. }
    rewrite znth_firstn by lia.
    assert (Hf : zlen (firstn (Z.to_nat i) l) = i) by (unfold zlen in *; rewrite firstn_length; lia).
    destruct (Z.eq_dec q i) as [->|Hn].
    + rewrite znth_zupd_same by lia. rewrite znth_app_r by lia. rewrite Hf, Z.sub_diag. reflexivity.
    + rewrite znth_zupd_other by lia. rewrite znth_app_l by lia. rewrite znth_firstn by lia. reflexivity.
Qed.

Lemma nwise_plain_spec {S A} (f : A -> A -> eff S A) n todo : forall i vec s,
  0 <= i -> i + Z.of_nat todo <= zlen vec ->
  nwise_plain f n todo i vec s =
  emap (fun vs => firstn (Z.to_nat i) vec ++ vs ++ skipn (Z.to_nat (i + Z.of_nat todo)) vec)
       (mapE (fold1 f) (map (fun q => win_at n (i + q) vec) (zseq (Z.of_nat todo)))) s.
Proof.
  induction todo as [|m IH]; intros i vec s Hi Hle; cbn [nwise_plain].
  - change (Z.of_nat 0) with 0. change (zseq 0) with (@nil Z). cbn [map mapE]. unfold emap, ebind, eret.
    replace (i + 0) with i by lia. cbn [app]. rewrite firstn_skipn. reflexivity.
  - rewrite zseq_cons by lia. cbn [map mapE]. unfold emap. unfold ebind at 3.
    unfold ebind at 1 2. replace (i + 0) with i by lia. unfold win. rewrite reduce_fold1. fold (win_at n i vec).
    destruct (fold1 f (win_at n i vec) s) as [[v| |] s1]; try reflexivity.
    rewrite IH by (rewrite ?zlen_zupd; lia).
    replace (Z.of_nat (Datatypes.S m) - 1) with (Z.of_nat m) by lia. rewrite map_map.
    unfold emap, ebind, eret.
    rewrite (map_ext_in (fun q => win_at n (i + 1 + q) (zupd vec i v)) (fun q => win_at n (i + (q + 1)) vec)).
    + destruct (mapE (fold1 f) _ s1) as [[vs| |] s2]; try reflexivity. f_equal. f_equal.
      rewrite firstn_succ_zupd by lia. rewrite skipn_zupd by lia. rewrite <- app_assoc. cbn [app].
      f_equal. f_equal. f_equal. f_equal. lia.
    + intros q Hq. apply In_zseq in Hq. unfold win_at. rewrite skipn_zupd by lia. f_equal. f_equal. lia.
Qed.

Lemma windows_win {A} n (l : list A) : windows n l = map (fun i => win_at n i l) (zseq (zlen l - n + 1)).
Proof. reflexivity. Qed.
Lemma zlen_win {A} n i (l : list A) : 0 <= n -> 0 <= i -> i + n <= zlen l -> zlen (win_at n i l) = n.
Proof. intros. unfold win_at, zlen in *. rewrite firstn_length, skipn_length. lia. Qed.
Lemma znth_win {A} n i (l : list A) q : 0 <= i -> 0 <= q < n -> znth (win_at n i l) q = znth l (i + q).
Proof. intros. unfold win_at. rewrite znth_firstn by lia. rewrite znth_skipn by lia. f_equal. lia. Qed.

Lemma mapM_zat_prefix {A} (vs r : list A) : mapM (zat (vs ++ r)) (zseq (zlen vs)) = Ok vs.
Proof.
  apply mapM_Forall2. apply Forall2_from_znth; [rewrite zlen_zseq; zln; lia|].
  intros i x y Hx Hy. pose proof (znth_some_range _ _ _ Hy) as Hi. rewrite znth_zseq in Hx by lia. inversion Hx; subst.
  apply zat_ok. rewrite znth_app_l by lia. exact Hy.
Qed.

(* what applyNwise leaves in the first positions: the window reductions *)
Definition nwise_out {S A} (f : A -> A -> eff S A) g n (vec : list A) : eff S (list A) :=
  let! vec' := applyNwise f g n vec in elift (mapM (zat vec') (zseq (zlen vec - n + 1))).

Lemma nwise_out_plain {S A} (f : A -> A -> eff S A) (g : option (A -> A -> eff S A)) n vec s :
  (g = None \/ n <= 3) -> 1 <= n <= zlen vec ->
  nwise_out f g n vec s = mapE (fold1 f) (windows n vec) s.
Proof.
  intros Hg Hn. unfold nwise_out.
  assert (E : applyNwise f g n vec s = nwise_plain f n (Z.to_nat (zlen vec - n + 1)) 0 vec s).
  { unfold applyNwise. destruct g as [g|]; [|reflexivity]. destruct Hg as [Hg|Hg]; [discriminate|].
    replace (3 <? n) with false by lia. reflexivity. }
  unfold ebind at 1. rewrite E. rewrite nwise_plain_spec by lia. rewrite Z2Nat.id by lia.
  cbn [Z.to_nat firstn app]. rewrite windows_win.
  rewrite (map_ext (fun q => win_at n (0 + q) vec) (fun q => win_at n q vec)) by reflexivity.
  unfold emap, ebind, eret, elift.
  destruct (mapE (fold1 f) _ s) as [[vs| |] s'] eqn:Em; try reflexivity.
  apply mapE_zlen in Em. rewrite zlen_map, zlen_zseq in Em.
  replace (zlen vec - n + 1) with (zlen vs) by lia. rewrite mapM_zat_prefix. reflexivity.
Qed.

(* ---- the accumulating fast path, for a commutative group operation ---- *)
Section FAST.
  Context {S A : Type} (f g : A -> A -> eff S A) (op sub : A -> A -> A).
  Hypothesis Hf : forall x y t, f x y t = (Ok (op x y), t).
  Hypothesis Hg : forall x y t, g x y t = (Ok (sub x y), t).
  Hypothesis op_assoc : forall x y z, op x (op y z) = op (op x y) z.
  Hypothesis op_comm : forall x y, op x y = op y x.
  Hypothesis sub_op : forall x y, sub (op x y) x = y.

  Lemma fold1p_cons d x l : l <> [] -> fold1p op d (x :: l) = op x (fold1p op d l).
  Proof. destruct l as [|y l]; [congruence|reflexivity]. Qed.
  Lemma fold1p_snoc d l x : l <> [] -> fold1p op d (l ++ [x]) = op (fold1p op d l) x.
  Proof.
    induction l as [|y l IH]; intros H; [congruence|]. destruct l as [|z l]; [reflexivity|].
    change ((y :: z :: l) ++ [x]) with (y :: ((z :: l) ++ [x])). rewrite fold1p_cons by (destruct l; discriminate).
    rewrite IH by discriminate. rewrite (fold1p_cons d y (z :: l)) by discriminate. apply op_assoc.
  Qed.
  Lemma acc_init_pure d xs x t : acc_init f x xs t = (Ok (fold1p op d (x :: xs)), t).
  Proof.
    revert x. induction xs as [|y xs IH]; intros x; [reflexivity|]. cbn [acc_init]. unfold ebind. rewrite Hf.
    rewrite IH. f_equal. f_equal. destruct xs as [|z xs]; [reflexivity|].
    rewrite (fold1p_cons d x (y :: z :: xs)), (fold1p_cons d y (z :: xs)), (fold1p_cons d (op x y) (z :: xs)) by discriminate.
    symmetry. apply op_assoc.
  Qed.

  (* sliding a window by one *)
  Lemma slide d n i (vec : list A) x y : 2 <= n -> 0 <= i -> i + n < zlen vec ->
    znth vec i = Some x -> znth vec (i + n) = Some y ->
    fold1p op d (win_at n (i + 1) vec) = op (sub (fold1p op d (win_at n i vec)) x) y.
  Proof.
    intros Hn Hi Hl Hx Hy.
    assert (E1 : win_at n i vec = x :: win_at (n - 1) (i + 1) vec).
    { apply znth_ext; [rewrite zlen_cons, !zlen_win by lia; lia|]. rewrite zlen_win by lia. intros q Hq.
      destruct (Z.eq_dec q 0) as [->|Hq0].
      - rewrite znth_win by lia. rewrite Z.add_0_r, Hx. reflexivity.
      - rewrite znth_cons_pos by lia. rewrite !znth_win by lia. f_equal. lia. }
    assert (E2 : win_at n (i + 1) vec = win_at (n - 1) (i + 1) vec ++ [y]).
    { apply znth_ext; [rewrite zlen_app, !zlen_win by lia; zln; lia|]. rewrite zlen_win by lia. intros q Hq.
      destruct (Z.eq_dec q (n - 1)) as [->|Hq0].
      - rewrite znth_win by lia. rewrite znth_app_r by (rewrite zlen_win by lia; lia). rewrite zlen_win by lia.
        rewrite Z.sub_diag. replace (i + 1 + (n - 1)) with (i + n) by lia. rewrite Hy. reflexivity.
      - rewrite znth_app_l by (rewrite zlen_win by lia; lia). rewrite !znth_win by lia. reflexivity. }
    assert (Hne : win_at (n - 1) (i + 1) vec <> []).
    { intros E. pose proof (zlen_win (n - 1) (i + 1) vec) as H. rewrite E in H. zln. lia. }
    rewrite E1, E2, fold1p_snoc, fold1p_cons by exact Hne. rewrite sub_op. reflexivity.
  Qed.

  Lemma nwise_fast_spec d n (vec0 : list A) todo : 2 <= n -> forall i vec acc window p s,
    1 <= i -> i + Z.of_nat todo = zlen vec0 - n + 1 -> zlen vec = zlen vec0 ->
    (forall q, i <= q -> znth vec q = znth vec0 q) ->
    acc = fold1p op d (win_at n (i - 1) vec0) ->
    zlen window = n -> p = (i - 1) mod n ->
    (forall t, i - 1 <= t <= i + n - 2 -> znth window (t mod n) = znth vec0 t) ->
    nwise_fast f g n todo i (Some (acc, window, p)) vec s =
    (Ok (firstn (Z.to_nat i) vec ++
         map (fun q => fold1p op d (win_at n (i + q) vec0)) (zseq (Z.of_nat todo)) ++
         skipn (Z.to_nat (i + Z.of_nat todo)) vec), s).
  Proof.
    intros Hn. induction todo as [|m IH]; intros i vec acc window p s Hi Htodo Hlen Hag Hacc Hwin Hp Hslots; cbn [nwise_fast].
    - change (Z.of_nat 0) with 0. rewrite Z.add_0_r. change (zseq 0) with (@nil Z). cbn [map app]. rewrite firstn_skipn. reflexivity.
    - pose proof (zlen_nonneg vec0) as Hz0.
      destruct (znth_in_range vec0 (i + n - 1)) as (y & Hy); [lia|].
      destruct (znth_in_range vec0 (i - 1)) as (x & Hx); [lia|].
      assert (Eold : zat window p = Ok x).
      { apply zat_ok. rewrite Hp, Hslots by lia. exact Hx. }
      assert (Enew : zat (win_at n i vec) (zlen (win_at n i vec) - 1) = Ok y).
      { rewrite zlen_win by lia. apply zat_ok. rewrite znth_win by lia. rewrite Hag by lia. rewrite <- Hy. f_equal. lia. }
      assert (Estep : fast_step f g (Some (acc, window, p)) (win_at n i vec) s =
        (Ok (fold1p op d (win_at n i vec0), zupd window p y, if p + 1 =? zlen window then 0 else p + 1), s)).
      { unfold fast_step. unfold elift. unfold ebind at 1. rewrite Enew. unfold ebind at 1. rewrite Eold.
        unfold ebind at 1. rewrite Hg. unfold ebind at 1. rewrite Hf. unfold eret. do 4 f_equal.
        rewrite Hacc. symmetry. replace i with (i - 1 + 1) at 1 by lia. apply slide; try lia; [exact Hx|].
        rewrite <- Hy. f_equal. lia. }
      unfold ebind. fold (win_at n i vec). rewrite Estep. cbn [fst].
      rewrite IH.
      + f_equal. f_equal. rewrite firstn_succ_zupd by lia. rewrite skipn_zupd by lia. rewrite <- app_assoc.
        f_equal. cbn [app]. rewrite (zseq_cons (Z.of_nat (Datatypes.S m))) by lia. cbn [map app]. f_equal; [f_equal; f_equal; lia|].
        f_equal; [|f_equal; lia]. rewrite map_map. replace (Z.of_nat (Datatypes.S m) - 1) with (Z.of_nat m) by lia. apply map_ext. intros q. do 2 f_equal. lia.
      + lia.
      + lia.
      + rewrite zlen_zupd. exact Hlen.
      + intros q Hq. rewrite znth_zupd_other by lia. apply Hag. lia.
      + f_equal. f_equal. lia.
      + rewrite zlen_zupd. exact Hwin.
      + rewrite Hwin. pose proof (Z.mod_pos_bound (i - 1) n ltac:(lia)) as Hb. rewrite Hp.
        destruct (Z.eqb_spec ((i - 1) mod n + 1) n) as [E|E].
        * replace (i + 1 - 1) with ((i - 1) + 1) by lia. rewrite <- Zplus_mod_idemp_l. rewrite E. symmetry. apply Z_mod_same_full.
        * replace (i + 1 - 1) with ((i - 1) + 1) by lia. rewrite <- Zplus_mod_idemp_l. rewrite (Z.mod_small ((i - 1) mod n + 1)) by lia. reflexivity.
      + intros t Ht. pose proof (Z.mod_pos_bound (i - 1) n ltac:(lia)) as Hb.
        destruct (Z.eq_dec t (i + n - 1)) as [->|Hne].
        * replace ((i + n - 1) mod n) with p.
          -- rewrite znth_zupd_same by lia. symmetry. exact Hy.
          -- rewrite Hp. replace (i + n - 1) with (i - 1 + 1 * n) by lia. rewrite Z_mod_plus_full. reflexivity.
        * rewrite znth_zupd_other; [apply Hslots; lia|]. rewrite Hp. intros E.
          assert (Hd : (t - (i - 1)) mod n = 0).
          { rewrite Zminus_mod, <- E. rewrite Z.sub_diag. apply Z.mod_0_l. lia. }
          apply Z.mod_divide in Hd; [|lia]. destruct Hd as (c & Hc). assert (c = 0) by nia. lia.
  Qed.

  Lemma nwise_out_fast d n vec s : 3 < n <= zlen vec ->
    nwise_out f (Some g) n vec s = (Ok (map (fold1p op d) (windows n vec)), s).
  Proof.
    intros Hn. unfold nwise_out, applyNwise. replace (3 <? n) with true by lia.
    destruct (Z.to_nat (zlen vec - n + 1)) as [|m] eqn:Em; [lia|].
    cbn [nwise_fast]. fold (win_at n 0 vec).
    assert (Hw : zlen (win_at n 0 vec) = n) by (apply zlen_win; lia).
    assert (Estep : fast_step f g None (win_at n 0 vec) s = (Ok (fold1p op d (win_at n 0 vec), win_at n 0 vec, 0), s)).
    { unfold fast_step. destruct (win_at n 0 vec) as [|x xs] eqn:Ew; [zln; lia|].
      unfold ebind. rewrite (acc_init_pure d). reflexivity. }
    unfold ebind at 1. unfold ebind at 1. change (win_at n 0 vec) with (firstn (Z.to_nat n) (skipn (Z.to_nat 0) vec)) in Estep at 1.
    fold (win_at n 0 vec) in Estep |- *. rewrite Estep. cbn [fst].
    rewrite (nwise_fast_spec d n vec).
    - unfold elift. f_equal. change (0 + 1) with 1 at 1. change (Z.to_nat 1) with (Z.to_nat (0 + 1)) at 1.
      rewrite firstn_succ_zupd by lia. cbn [Z.to_nat firstn app].
      replace (0 + 1 + Z.of_nat m) with (zlen vec - n + 1) by lia.
      rewrite windows_win, map_map.
      rewrite (zseq_cons (zlen vec - n + 1)) at 2 by lia. cbn [map].
      replace (zlen vec - n + 1 - 1) with (Z.of_nat m) by lia. rewrite map_map.
      rewrite (map_ext (fun x => fold1p op d (win_at n (x + 1) vec)) (fun q => fold1p op d (win_at n (0 + 1 + q) vec)))
        by (intros q; do 2 f_equal; lia).
      set (ms := map (fun q => fold1p op d (win_at n (0 + 1 + q) vec)) (zseq (Z.of_nat m))).
      replace (zlen vec - n + 1) with (zlen (fold1p op d (win_at n 0 vec) :: ms))
        by (unfold ms; zln; rewrite zlen_map, zlen_zseq; lia).
      rewrite app_comm_cons. apply mapM_zat_prefix.
    - lia.
    - lia.
    - lia.
    - apply zlen_zupd.
    - intros q Hq. apply znth_zupd_other. lia.
    - f_equal.
    - exact Hw.
    - symmetry. apply Z.mod_0_l. lia.
    - intros t Ht. rewrite Z.mod_small by lia. rewrite znth_win by lia. f_equal.
  Qed.
End FAST.

Lemma zlen_windows {A} n (l : list A) : 0 <= n <= zlen l + 1 -> zlen (windows n l) = zlen l - n + 1.
Proof. intros H. rewrite windows_win, zlen_map, zlen_zseq. lia. Qed.
Lemma znth_windows {A} n (l : list A) i : 0 <= i < zlen l - n + 1 -> znth (windows n l) i = Some (win_at n i l).
Proof. intros H. rewrite windows_win, znth_map, znth_zseq by lia. reflexivity. Qed.
Lemma windows_rev {A} n (l : list A) : 1 <= n <= zlen l ->
  windows n (rev l) = map (@rev A) (rev (windows n l)).
Proof.
  intros Hn. apply znth_ext.
  - rewrite zlen_map, zlen_rev, !zlen_windows by (rewrite ?zlen_rev; lia). rewrite zlen_rev. reflexivity.
  - rewrite zlen_windows by (rewrite zlen_rev; lia). rewrite zlen_rev. intros i Hi.
    rewrite znth_windows by (rewrite zlen_rev; lia). rewrite znth_map.
    rewrite znth_rev by (rewrite zlen_windows by lia; lia). rewrite zlen_windows by lia.
    rewrite znth_windows by lia. cbn [option_map]. f_equal.
    apply znth_ext; [rewrite zlen_rev, !zlen_win by (rewrite ?zlen_rev; lia); reflexivity|].
    rewrite zlen_win by (rewrite ?zlen_rev; lia). intros q Hq.
    rewrite znth_win by lia. rewrite znth_rev by lia. rewrite znth_rev by (rewrite zlen_win by lia; lia).
    rewrite zlen_win by lia. rewrite znth_win by lia. f_equal. lia.
Qed.

Lemma mapM_At_line_rev {A} (a : arr A) k n i0 j :
  wf a -> znth (dims a) k = Some n -> inb (del k (dims a)) j ->
  mapM (fun q => At a (ic_index (strides (dims a)) (zupd (ins k i0 j) k (n - 1 - q)))) (zseq n) = Ok (rev (line a k n j)).
Proof.
  intros Hw Hn Hj. pose proof (znth_some_range _ _ _ Hn) as Hk.
  pose proof (zlen_inb_del _ _ _ Hk Hj) as Hz.
  destruct (line_ok a k n j Hw Hn Hj) as [L1 L2]. pose proof (zlen_nonneg (line a k n j)) as L0.
  apply mapM_Forall2. apply Forall2_from_znth.
  - rewrite zlen_zseq, zlen_rev, L1. lia.
  - intros i x y Hx Hy. pose proof (znth_some_range _ _ _ Hx) as Hi. rewrite zlen_zseq in Hi.
    rewrite znth_zseq in Hx by lia. inversion Hx; subst x.
    rewrite znth_rev in Hy by lia. rewrite L1, L2 in Hy by lia. rewrite zupd_ins by lia.
    assert (Hin : inb (dims a) (ins k (n - 1 - i) j)) by (apply (inb_ins _ _ n); [exact Hn|exact Hj|lia]).
    rewrite ic_index_pos by (apply inb_length; exact Hin). apply zat_ok. exact Hy.
Qed.

Lemma del_zupd {A} (l : list A) k v : 0 <= k < zlen l -> del k (zupd l k v) = del k l.
Proof.
  intros Hk. apply znth_ext; [rewrite !zlen_del by (rewrite ?zlen_zupd; lia); rewrite zlen_zupd; reflexivity|].
  rewrite zlen_del by (rewrite ?zlen_zupd; lia). rewrite zlen_zupd. intros i Hi.
  rewrite !znth_del by (rewrite ?zlen_zupd; lia). destruct (i <? k) eqn:E; apply znth_zupd_other; lia.
Qed.

(* the results for one line of length m *)
Definition nwise_row {S A} (f : A -> A -> eff S A) g (L : Z) (l : list A) : eff S (list A) :=
  if L <? 0 then emap (@rev A) (nwise_out f g (- L) (rev l)) else nwise_out f g L l.

Lemma mapM_zlen {A B} (f : A -> outcome B) l r : mapM f l = Ok r -> zlen r = zlen l.
Proof. intros H. unfold zlen. rewrite (mapM_length _ _ _ H). reflexivity. Qed.

Lemma nwise_out_zlen {S A} (f : A -> A -> eff S A) g n l s r s' : 0 <= n <= zlen l + 1 ->
  nwise_out f g n l s = (Ok r, s') -> zlen r = zlen l - n + 1.
Proof.
  intros Hn H. unfold nwise_out, ebind, elift in H. destruct (applyNwise f g n l s) as [[v| |] s1]; try discriminate.
  inversion H as [[H1 H2]]. apply mapM_zlen in H1. rewrite zlen_zseq in H1. lia.
Qed.
Lemma nwise_row_zlen {S A} (f : A -> A -> eff S A) g L l s r s' : Z.abs L <= zlen l + 1 ->
  nwise_row f g L l s = (Ok r, s') -> zlen r = zlen l - Z.abs L + 1.
Proof.
  intros Hn H. unfold nwise_row in H. destruct (L <? 0) eqn:E.
  - unfold emap, ebind, eret in H. destruct (nwise_out f g (- L) (rev l) s) as [[v| |] s1] eqn:E2; try discriminate.
    inversion H; subst. apply nwise_out_zlen in E2; [|rewrite zlen_rev; lia]. rewrite zlen_rev in *. lia.
  - apply nwise_out_zlen in H; lia.
Qed.

(* the writes of a reversed result *)
Lemma enum_good_rev {A} (row : list A) m : zlen row = m ->
  let ps := map (fun kv => (m - 1 - fst kv, snd kv)) (enum (rev row)) in
  good_writes m ps /\ forall i x, znth row i = Some x -> In (i, x) ps.
Proof.
  intros Hm ps. destruct (enum_good (rev row) m) as [[Hnd Hrg] Hin]; [rewrite zlen_rev; exact Hm|].
  split; [split|].
  - unfold ps. rewrite map_map. cbn [fst].
    rewrite <- (map_map fst (fun i => m - 1 - i)). apply FinFun.Injective_map_NoDup; [|exact Hnd].
    intros x y H. lia.
  - unfold ps. apply Forall_forall. intros p Hp. apply in_map_iff in Hp. destruct Hp as (q & <- & Hq).
    rewrite Forall_forall in Hrg. specialize (Hrg _ Hq). cbn [fst]. lia.
  - intros i x Hx. pose proof (znth_some_range _ _ _ Hx) as Hi. unfold ps.
    apply in_map_iff. exists (m - 1 - i, x). cbn [fst snd]. split; [f_equal; lia|].
    apply Hin. rewrite znth_rev by lia. rewrite <- Hx. f_equal. lia.
Qed.

Lemma nwise_axis {S A} (z zero : A) (f : A -> A -> eff S A) ident g L (a : arr A) axis k n s :
  wf a -> (axis = -1 /\ k = zlen (dims a) - 1 \/ 0 <= axis /\ k = axis) -> znth (dims a) k = Some n ->
  1 <= Z.abs L <= n ->
  let js := all_idx (del k (dims a)) in
  match mapE (fun j => nwise_row f g L (line a k n j)) js s with
  | (Ok rows, s') => exists r, nwise z zero f ident g L (Arr a) axis s = (Ok (Arr r), s') /\
      rows_at (zupd (dims a) k (n - Z.abs L + 1)) k js rows r
  | (Err, s') => nwise z zero f ident g L (Arr a) axis s = (Err, s')
  | (Panic, s') => nwise z zero f ident g L (Arr a) axis s = (Panic, s')
  end.
Proof.
  intros Hw Hax Hn HL js. pose proof (znth_some_range _ _ _ Hn) as Hkr.
  pose proof (wf_nonneg _ Hw) as Hnn. pose proof (wf_dims_ne _ Hw) as Hne.
  set (N := Z.abs L) in *. set (m := n - N + 1). set (ds := zupd (dims a) k m).
  assert (Hdsne : ds <> []) by (apply zupd_ne; exact Hne).
  assert (Hdsn : Forall (fun d => 0 <= d) ds) by (apply Forall_zupd; [exact Hnn|lia]).
  assert (Hdsm : znth ds k = Some m) by (apply znth_zupd_same; lia).
  assert (Hdel : del k ds = del k (dims a)) by (apply del_zupd; lia).
  pose proof (size_nonneg _ Hdsn) as Hs.
  set (enc := fun out : list A => if L <? 0 then map (fun kv => (n - N - fst kv, snd kv)) (enum (rev out)) else enum out).
  set (compute := fun idx =>
         let! vec := elift (mapM (fun q =>
             At a (ic_index (strides (dims a)) (zupd idx k (if L <? 0 then n - 1 - q else q)))) (zseq n)) in
         let! vec' := applyNwise f g N vec in
         let! out := elift (mapM (zat vec') (zseq (n - N + 1))) in
         eret (map (fun kv => (if L <? 0 then n - N - fst kv else fst kv, snd kv)) (enum out))).
  assert (E : nwise z zero f ident g L (Arr a) axis s =
    (if size ds =? 0 then eret (Arr (mkArr ds [])) else
     let! l := lines_loop (Z.to_nat (size (zupd (dims a) k 1))) (zerosZ (length (zupd (dims a) k 1))) (zupd (dims a) k 1)
                 setP (strides ds) k compute (repeat z (Z.to_nat (size ds))) in
     eret (Arr (mkArr ds l))) s).
  { unfold nwise.
    replace (if axis =? -1 then zlen (dims a) + axis else axis) with k by (destruct (Z.eqb_spec axis (-1)); lia).
    replace ((k <? 0) || (zlen (dims a) <=? k)) with false by lia.
    unfold zat. rewrite Hn. unfold elift at 1. unfold ebind at 1.
    replace (if L <? 0 then - L else L) with N by (unfold N; destruct (Z.ltb_spec L 0); lia).
    replace (n - (N - 1)) with m by lia. fold ds. rewrite !Prod_size by (try exact Hdsne; apply zupd_ne; exact Hne).
    replace (2 <? N - n) with false by lia. replace (size ds <? 0) with false by lia.
    destruct (size ds =? 0) eqn:E0; [reflexivity|]. replace (N =? 0) with false by lia.
    rewrite !NewIdxConverter_ok by assumption. unfold elift at 1. unfold ebind at 1. unfold elift at 1. unfold ebind at 1.
    rewrite zlen_zupd_length. reflexivity. }
  rewrite E. clear E.
  assert (Hrow : forall j t row t', inb (del k ds) j ->
    nwise_row f g L (line a k n j) t = (Ok row, t') -> zlen row = m).
  { intros j t row t' Hj H. rewrite Hdel in Hj. destruct (line_ok a k n j Hw Hn Hj) as [L1 _].
    apply nwise_row_zlen in H; rewrite L1 in *; fold N in H |- *; lia. }
  assert (Hcomp : forall j t, inb (del k ds) j ->
    compute (ins k 0 j) t = emap enc (nwise_row f g L (line a k n j)) t).
  { intros j t Hj. rewrite Hdel in Hj. destruct (line_ok a k n j Hw Hn Hj) as [L1 _].
    unfold compute, nwise_row, enc. destruct (L <? 0) eqn:EL.
    - unfold elift. unfold ebind at 1. rewrite (mapM_At_line_rev a k n 0 j Hw Hn Hj).
      replace (- L) with N by lia. unfold nwise_out, emap. unfold ebind, elift, eret. rewrite zlen_rev, L1.
      destruct (applyNwise f g N (rev (line a k n j)) t) as [[v| |] t1]; try reflexivity.
      destruct (mapM (zat v) (zseq (n - N + 1))) as [out| |]; try reflexivity.
      rewrite rev_involutive. reflexivity.
    - unfold elift. unfold ebind at 1.
      change (mapM (fun q => At a (ic_index (strides (dims a)) (zupd (ins k 0 j) k q))) (zseq n))
        with (read_line a (strides (dims a)) (ins k 0 j) k n).
      rewrite (read_line_ok a k n 0 j Hw Hn Hj). replace L with N by lia.
      unfold nwise_out, emap. unfold ebind, elift, eret. rewrite L1.
      destruct (applyNwise f g N (line a k n j) t) as [[v| |] t1]; try reflexivity.
      destruct (mapM (zat v) (zseq (n - N + 1))) as [out| |]; try reflexivity.
      f_equal. f_equal. rewrite <- (map_id (enum out)) at 2. apply map_ext. intros [q x]. reflexivity. }
  assert (Henc : forall row, zlen row = m -> good_writes m (enc row) /\ forall i x, znth row i = Some x -> In (i, x) (enc row)).
  { intros row Hrl. unfold enc. destruct (L <? 0) eqn:EL.
    - replace (n - N) with (m - 1) by lia. apply enum_good_rev. exact Hrl.
    - apply enum_good. exact Hrl. }
  assert (Hl1 : Forall (fun d => 0 <= d) (zupd (dims a) k 1)) by (apply Forall_zupd; [exact Hnn|lia]).
  assert (Hlidx : all_idx (zupd (dims a) k 1) = map (ins k 0) (all_idx (del k ds))).
  { rewrite Hdel. apply (all_idx_line _ _ n). exact Hn. }
  assert (Hrep : zlen (repeat z (Z.to_nat (size ds))) = size ds) by (rewrite zlen_repeat; lia).
  pose proof (lines_rows setP ds k m (zupd (dims a) k 1) compute
    (fun j => nwise_row f g L (line a k n j)) enc (repeat z (Z.to_nat (size ds))) s
    setP_ok Hdsne Hdsn Hdsm Hl1 Hlidx Hcomp Hrow Henc Hrep) as HLR.
  destruct (size ds =? 0) eqn:E0.
  - (* some other axis is empty: no lines at all *)
    assert (Hj0 : js = []).
    { unfold js. rewrite <- Hdel. destruct (all_idx (del k ds)) as [|j r] eqn:Ej; [reflexivity|].
      assert (Hj : inb (del k ds) j) by (apply In_all_idx; rewrite Ej; left; reflexivity).
      assert (Hin : inb ds (ins k 0 j)) by (apply (inb_ins _ _ m); [exact Hdsm|exact Hj|lia]).
      apply pos_range in Hin. lia. }
    rewrite Hj0. cbn [mapE]. unfold eret. exists (mkArr ds []). split; [reflexivity|].
    split; [|split; [reflexivity|constructor]]. apply wf_fill_elems; [exact Hdsne|exact Hdsn|]. zln. lia.
  - rewrite Hdel in HLR. fold js in HLR.
    destruct (mapE _ js s) as [[rows| |] s'].
    + destruct HLR as (res' & E & HR). exists (mkArr ds res'). unfold ebind. rewrite E. split; [reflexivity|exact HR].
    + unfold ebind. rewrite HLR. reflexivity.
    + unfold ebind. rewrite HLR. reflexivity.
Qed.

(* what a row is *)
Lemma nwise_row_plain {S A} (f : A -> A -> eff S A) (g : option (A -> A -> eff S A)) L l s :
  (g = None \/ Z.abs L <= 3) -> 1 <= Z.abs L <= zlen l ->
  nwise_row f g L l s =
  (if L <? 0 then emap (@rev A) (mapE (fold1 f) (map (@rev A) (rev (windows (- L) l))))
   else mapE (fold1 f) (windows L l)) s.
Proof.
  intros Hg HL. unfold nwise_row. destruct (L <? 0) eqn:E.
  - unfold emap. apply ebind_ext; [|reflexivity]. rewrite nwise_out_plain by (rewrite ?zlen_rev; intuition lia).
    rewrite windows_rev by lia. reflexivity.
  - apply nwise_out_plain; intuition lia.
Qed.
