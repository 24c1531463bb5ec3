(* P_Stencil.v -- lemmas for the stencil operator. *)
From Coq Require Import Lia ZArith.
From Verif Require Import Base M_Array S_Array P_Array P_Transpose M_Structural Eff M_Operators M_Stencil S_Stencil.
Ltac Zify.zify_post_hook ::= Z.to_euclidean_division_equations.

Lemma st_dst_below w p q : Forall (fun d => 0 <= d) w -> st_dst p q w = below w p q.
Proof.
  unfold below. revert p q. induction w as [|d w IH]; intros [|i p] [|j q] H; cbn [st_dst combine map]; try reflexivity.
  inversion H as [|? ? Hd Hw]; subst. rewrite IH by assumption. cbn [fst snd]. f_equal. lia.
Qed.
Lemma st_out_inb dst rs : length dst = length rs -> (st_out dst rs = false <-> inb rs dst).
Proof.
  revert rs. induction dst as [|x dst IH]; intros [|r rs] H; try discriminate H.
  - split; [constructor|reflexivity].
  - cbn [st_out]. injection H as H. rewrite !Bool.orb_false_iff, IH by assumption. unfold inb. split.
    + intros ((H1 & H2) & H3). constructor; [lia|assumption].
    + intros H1. inversion H1; subst. split; [split; lia|assumption].
Qed.
Lemma below_length w p q : length p = length w -> length q = length w -> length (below w p q) = length w.
Proof. intros H1 H2. unfold below. rewrite map_length, !combine_length. lia. Qed.

Fixpoint incs (n : nat) (sdx w : list Z) : list Z :=
  match n with O => sdx | S n' => incs n' (IncArrayIndex sdx w) w end.

Section Loop.
  Context {A : Type} (zero : A) (ar : arr A) (ic idx w : list Z).
  Definition st_body (q : list Z) : outcome A :=
    let dst := st_dst idx q w in if st_out dst (dims ar) then Ok zero else At ar (ic_index ic dst).
  Lemma st_loop_odo n : forall sdx vec,
    st_loop zero n ar ic idx w sdx vec =
    (let* l := odo_loop n sdx w (fun q => let* x := st_body q in Ok (x, q)) in
     Ok (map fst l, fold_left (fun v q => st_vec w (st_dst idx q w) v) (map snd l) vec, incs n sdx w)).
  Proof.
    induction n as [|n IH]; intros sdx v; [reflexivity|]. cbn [st_loop odo_loop incs]. cbv zeta. unfold st_body at 1. cbv zeta.
    destruct (if st_out (st_dst idx sdx w) (dims ar) then Ok zero else At ar (ic_index ic (st_dst idx sdx w))) as [x| |]; cbn [obind]; try reflexivity.
    rewrite IH. destruct (odo_loop n (IncArrayIndex sdx w) w (fun q => let* x0 := st_body q in Ok (x0, q))) as [l| |]; reflexivity.
  Qed.
End Loop.

Lemma incs_pos w : forall n q, inb w q -> (n < Z.to_nat (size w - pos w q))%nat -> inb w (incs n q w) /\ pos w (incs n q w) = pos w q + Z.of_nat n.
Proof.
  induction n as [|n IH]; intros q Hq Hn; [cbn [incs]; split; [assumption|lia]|]. cbn [incs]. unfold IncArrayIndex.
  pose proof (inc_aux_spec w q Hq) as Hi. destruct (inc_aux q w) as [q' c]. cbn [fst]. destruct Hi as (I1 & I2).
  destruct c; [lia|]. destruct (IH q' I1 ltac:(lia)) as (H1 & H2). split; [assumption|lia].
Qed.
Lemma incs_app w n m : forall q, incs (n + m) q w = incs m (incs n q w) w.
Proof. induction n as [|n IH]; intros q; [reflexivity|]. cbn [Nat.add incs]. apply IH. Qed.
(* the odometer is back at its start after all cells of the window *)
Lemma incs_all w : Forall (fun d => 0 <= d) w -> 0 < size w -> incs (Z.to_nat (size w)) (zerosZ (length w)) w = zerosZ (length w).
Proof.
  intros Hn Hs. assert (Hp : Forall (fun d => 0 < d) w) by (apply size_pos_all; assumption).
  pose proof (zeros_inb w Hp) as Hz. pose proof (pos_zeros w) as Hp0.
  replace (Z.to_nat (size w)) with (Z.to_nat (size w - 1) + 1)%nat by lia. rewrite incs_app.
  destruct (incs_pos w (Z.to_nat (size w - 1)) _ Hz ltac:(lia)) as (H1 & H2).
  cbn [incs]. unfold IncArrayIndex. pose proof (inc_aux_spec w _ H1) as Hi.
  destruct (inc_aux (incs (Z.to_nat (size w - 1)) (zerosZ (length w)) w) w) as [q' c]. cbn [fst].
  destruct Hi as (I1 & I2). destruct c; [apply I2|]. pose proof (pos_range w q' I1). lia.
Qed.

(* the left argument on one axis *)
Lemma st_vec1_step d a q v : 0 < d -> 0 <= q < d ->
  (a < 0 -> 0 <= v <= - a -> 0 <= st_vec1 d (a + q) v <= - a /\ (q = 0 \/ v = - a -> st_vec1 d (a + q) v = - a))
  /\ (0 <= a -> - a <= v <= 0 -> - a <= st_vec1 d (a + q) v <= 0 /\ (q = d - 1 \/ v = - a -> st_vec1 d (a + q) v = - a)).
Proof.
  intros Hd Hq. unfold st_vec1. cbv zeta.
  destruct (Z.ltb_spec (a + q) 0), (Z.ltb_spec v (- (a + q))), (Z.ltb_spec 0 (a + q + 1 - d)), (Z.ltb_spec (- (a + q + 1 - d)) v); cbn [andb]; lia.
Qed.
Definition axis_inv (d a v : Z) (seen0 seenlast : Prop) : Prop :=
  (a < 0 -> 0 <= v <= - a /\ (seen0 -> v = - a)) /\ (0 <= a -> - a <= v <= 0 /\ (seenlast -> v = - a)).

Lemma znth_nil_not {X} k (x : X) : znth [] k = Some x -> False.
Proof. intros H. apply znth_some_range in H. unfold zlen in H. cbn in H. lia. Qed.
Lemma znth_cons_succ {X} (x : X) l k : 0 <= k -> znth (x :: l) (k + 1) = znth l k.
Proof. intros H. rewrite znth_cons_pos by lia. f_equal. lia. Qed.
Lemma znth_st_vec w : forall dst vec k d x v, znth w k = Some d -> znth dst k = Some x -> znth vec k = Some v ->
  znth (st_vec w dst vec) k = Some (st_vec1 d x v).
Proof.
  induction w as [|d0 w IH]; intros dst vec k d x v H1 H2 H3; [destruct (znth_nil_not _ _ H1)|].
  destruct dst as [|x0 dst]; [destruct (znth_nil_not _ _ H2)|].
  destruct vec as [|v0 vec]; [destruct (znth_nil_not _ _ H3)|].
  cbn [st_vec]. pose proof (znth_some_range _ _ _ H1).
  destruct (Z.eq_dec k 0) as [->|K].
  - rewrite znth_cons_0 in *. congruence.
  - rewrite znth_cons_pos in * by lia. apply IH; assumption.
Qed.
Lemma length_st_vec w : forall dst vec, length dst = length w -> length vec = length w -> length (st_vec w dst vec) = length w.
Proof.
  induction w as [|d w IH]; intros [|x dst] [|v vec] H1 H2; try discriminate; [reflexivity|]. cbn. f_equal. apply IH; cbn in *; lia.
Qed.
Lemma znth_below w : forall p q k d i j, znth w k = Some d -> znth p k = Some i -> znth q k = Some j ->
  znth (below w p q) k = Some (i + j - d / 2).
Proof.
  unfold below. induction w as [|d0 w IH]; intros p q k d i j H1 H2 H3; [destruct (znth_nil_not _ _ H1)|].
  destruct p as [|x0 p]; [destruct (znth_nil_not _ _ H2)|].
  destruct q as [|v0 q]; [destruct (znth_nil_not _ _ H3)|].
  cbn [combine map]. pose proof (znth_some_range _ _ _ H1).
  destruct (Z.eq_dec k 0) as [->|K].
  - rewrite znth_cons_0 in *. cbn [fst snd]. congruence.
  - rewrite znth_cons_pos in * by lia. apply IH; assumption.
Qed.

Lemma Hw0 (w : list Z) : Forall (fun d => 0 < d) w -> Forall (fun d => 0 <= d) w.
Proof. apply Forall_impl. intros a H. lia. Qed.

Section Lvec.
  Context (w p : list Z) (Hw : Forall (fun d => 0 < d) w) (Hp : length p = length w).
  Notation step := (fun v q => st_vec w (st_dst p q w) v).
  Lemma lvec_axis k d i : znth w k = Some d -> znth p k = Some i -> forall qs vec v (s0 sl : Prop),
    (forall q, In q qs -> inb w q) -> length vec = length w -> znth vec k = Some v -> axis_inv d (i - d / 2) v s0 sl ->
    exists v', znth (fold_left step qs vec) k = Some v' /\ length (fold_left step qs vec) = length w
      /\ axis_inv d (i - d / 2) v' (s0 \/ exists q, In q qs /\ znth q k = Some 0) (sl \/ exists q, In q qs /\ znth q k = Some (d - 1)).
  Proof using Hw Hp.
    intros Hd Hi. assert (D : 0 < d) by (rewrite Forall_forall in Hw; apply Hw; eapply znth_In; eassumption).
    induction qs as [|q qs IH]; intros v0 v s0 sl Hin HL Hv HI.
    - exists v. split; [exact Hv|]. split; [exact HL|]. unfold axis_inv in *. firstorder.
    - cbn [fold_left]. pose proof (Hin q (or_introl eq_refl)) as Hq. pose proof (inb_length _ _ Hq) as Lq.
      rewrite st_dst_below by (apply Hw0; exact Hw).
      destruct (inb_coord w q k d Hq Hd) as (j & Hj & J).
      destruct (IH (st_vec w (below w p q) v0) (st_vec1 d (i + j - d / 2) v) (s0 \/ j = 0) (sl \/ j = d - 1)) as (v' & V1 & V2 & V3).
      + intros q' H. apply Hin. right. exact H.
      + apply length_st_vec; [apply below_length; lia|exact HL].
      + apply znth_st_vec; [exact Hd|apply znth_below; assumption|exact Hv].
      + replace (i + j - d / 2) with (i - d / 2 + j) by lia. pose proof (st_vec1_step d (i - d / 2) j v D J) as (S1 & S2).
        destruct HI as (I1 & I2). split; intros H.
        * specialize (I1 H). destruct (S1 H (proj1 I1)) as (T1 & T2). split; [exact T1|]. intros [X|X]; apply T2; [right; apply I1; exact X|left; exact X].
        * specialize (I2 H). destruct (S2 H (proj1 I2)) as (T1 & T2). split; [exact T1|]. intros [X|X]; apply T2; [right; apply I2; exact X|left; exact X].
      + exists v'. split; [exact V1|]. split; [exact V2|]. destruct V3 as (U1 & U2). split; intros H.
        * destruct (U1 H) as (U3 & U4). split; [exact U3|]. intros [X|(q' & [->|Q1] & Q2)]; apply U4; [left; left; exact X| |right; exists q'; split; assumption].
          left. right. congruence.
        * destruct (U2 H) as (U3 & U4). split; [exact U3|]. intros [X|(q' & [->|Q1] & Q2)]; apply U4; [left; left; exact X| |right; exists q'; split; assumption].
          left. right. congruence.
  Qed.
End Lvec.

Lemma lvec_all (w p : list Z) : Forall (fun d => 0 < d) w -> length p = length w ->
  fold_left (fun v q => st_vec w (st_dst p q w) v) (all_idx w) (zerosZ (length w)) = center_offset w p.
Proof.
  intros Hw Hp. pose proof (Hw0 w Hw) as Hn.
  assert (Z0 : zlen (zerosZ (length w)) = zlen w) by (unfold zerosZ; rewrite zlen_repeat; reflexivity).
  assert (Key : forall k d i, znth w k = Some d -> znth p k = Some i ->
    znth (fold_left (fun v q => st_vec w (st_dst p q w) v) (all_idx w) (zerosZ (length w))) k = Some (d / 2 - i)
    /\ length (fold_left (fun v q => st_vec w (st_dst p q w) v) (all_idx w) (zerosZ (length w))) = length w).
  { intros k d i Hd Hi. pose proof (znth_some_range _ _ _ Hd) as Hr.
    assert (D : 0 < d) by (rewrite Forall_forall in Hw; apply Hw; eapply znth_In; eassumption).
    destruct (lvec_axis w p Hw Hp k d i Hd Hi (all_idx w) (zerosZ (length w)) 0 False False) as (v & V1 & V2 & V3).
    - intros q. apply In_all_idx.
    - unfold zerosZ. apply repeat_length.
    - apply znth_repeat. exact Hr.
    - split; intros H; (split; [lia|intros []]).
    - split; [|exact V2]. rewrite V1. f_equal. pose proof (zeros_inb w Hw) as Hz. destruct V3 as (U1 & U2).
      destruct (Z.lt_ge_cases (i - d / 2) 0) as [L|L].
      + destruct (U1 L) as (_ & U). rewrite U; [lia|]. right. exists (zerosZ (length w)). split; [apply In_all_idx; exact Hz|]. apply znth_repeat. exact Hr.
      + destruct (U2 L) as (_ & U). rewrite U; [lia|]. right. exists (zupd (zerosZ (length w)) k (d - 1)). split.
        * apply In_all_idx. eapply inb_upd_same; [exact Hz|exact Hd|lia].
        * apply znth_zupd_same. lia. }
  assert (LZ : zlen (center_offset w p) = zlen w) by (unfold center_offset; rewrite zlen_map; unfold zlen; rewrite combine_length; lia).
  destruct w as [|d0 w0] eqn:Ew; [destruct p; [reflexivity|discriminate Hp]|]. rewrite <- Ew in *.
  assert (LF : zlen (fold_left (fun v q => st_vec w (st_dst p q w) v) (all_idx w) (zerosZ (length w))) = zlen w).
  { destruct p as [|i0 p0] eqn:Ep; [rewrite Ew in Hp; discriminate Hp|]. rewrite <- Ep in *.
    destruct (Key 0 d0 i0) as (_ & K); [rewrite Ew; apply znth_cons_0|rewrite Ep; apply znth_cons_0|]. unfold zlen. rewrite K. reflexivity. }
  apply znth_ext; [lia|]. intros k Hk. rewrite LF in Hk.
  destruct (znth_in_range w k Hk) as [d Hd]. destruct (znth_in_range p k) as [i Hi]; [unfold zlen in *; lia|].
  destruct (Key k d i Hd Hi) as (K & _). rewrite K. symmetry. unfold center_offset. rewrite znth_map, (znth_combine w p k d i Hd Hi). reflexivity.
Qed.

(* the window and the left argument of one cell *)
Section Window.
  Context {A : Type} (zero : A) (ar : arr A) (Hwf : wf ar) (w : list Z) (Hw : Forall (fun d => 0 < d) w) (Hr : length w = length (dims ar)).
  Definition window (p : list Z) : arr A :=
    mkArr w (map (fun q => match st_body zero ar (strides (dims ar)) p w q with Ok x => x | _ => zero end) (all_idx w)).
  Lemma st_body_ok p q : inb (dims ar) p -> inb w q -> exists x, st_body zero ar (strides (dims ar)) p w q = Ok x
    /\ (inb (dims ar) (below w p q) -> elem ar (below w p q) = Some x) /\ (~ inb (dims ar) (below w p q) -> x = zero).
  Proof using Hwf Hw Hr.
    intros Hp Hq. pose proof (inb_length _ _ Hp) as Lp. pose proof (inb_length _ _ Hq) as Lq.
    unfold st_body. cbv zeta. rewrite st_dst_below by (apply Hw0; exact Hw).
    assert (LB : length (below w p q) = length (dims ar)) by (rewrite below_length; lia).
    destruct (st_out (below w p q) (dims ar)) eqn:O.
    - exists zero. split; [reflexivity|]. split; [|reflexivity]. intros H. apply (st_out_inb _ _ LB) in H. congruence.
    - apply (st_out_inb _ _ LB) in O. destruct (elem_some ar _ Hwf O) as (x & Hx). exists x.
      split; [|split; [intros _; exact Hx|intros H; contradiction]].
      rewrite ic_index_pos by lia. unfold At. apply zat_ok. exact Hx.
  Qed.
  Lemma window_spec p : inb (dims ar) p -> window_at zero ar w p (window p).
  Proof using Hwf Hw Hr.
    intros Hp. split; [|split; [reflexivity|]].
    - unfold window. apply wf_build; [destruct w; [destruct Hwf as (H & _); destruct (dims ar); [congruence|discriminate Hr]|discriminate]|apply Hw0; exact Hw].
    - intros q Hq. destruct (st_body_ok p q Hp Hq) as (x & E & H1 & H2). unfold window. rewrite elem_build by exact Hq. rewrite E.
      split; intros H; [symmetry; apply H1; exact H|rewrite H2 by exact H; reflexivity].
  Qed.
  Lemma st_loop_window p : inb (dims ar) p -> 0 < size w ->
    st_loop zero (Z.to_nat (size w)) ar (strides (dims ar)) p w (zerosZ (length w)) (zerosZ (length (dims ar)))
    = Ok (elems (window p), center_offset w p, zerosZ (length w)).
  Proof using Hwf Hw Hr.
    intros Hp Hs. pose proof (Hw0 w Hw) as Hn. rewrite st_loop_odo, odo_loop_all by exact Hn.
    rewrite (mapM_ok_map _ (fun q => (match st_body zero ar (strides (dims ar)) p w q with Ok x => x | _ => zero end, q))).
    - cbn [obind]. rewrite !map_map. cbn [fst snd]. rewrite map_id, incs_all by assumption. rewrite <- Hr, lvec_all; [reflexivity|exact Hw|pose proof (inb_length _ _ Hp); lia].
    - intros q Hq. apply In_all_idx in Hq. destruct (st_body_ok p q Hp Hq) as (x & E & _). rewrite E. reflexivity.
  Qed.
End Window.

Lemma inb_dec ds : forall idx, inb ds idx \/ ~ inb ds idx.
Proof.
  induction ds as [|d ds IH]; intros [|i idx]; try (right; intros H; inversion H; fail); [left; constructor|].
  destruct (IH idx) as [B|B]; [|right; intros H; inversion H; subst; contradiction].
  destruct (Z.le_gt_cases 0 i), (Z.lt_ge_cases i d); try (right; intros X; inversion X; subst; lia). left. constructor; [lia|exact B].
Qed.
Lemma window_unique {A} (zero : A) ar w p (a b : arr A) : window_at zero ar w p a -> window_at zero ar w p b -> a = b.
Proof.
  intros (W1 & D1 & E1) (W2 & D2 & E2). apply arr_ext; [exact W1|exact W2|congruence|].
  intros q Hq. rewrite D1 in Hq. destruct (E1 q Hq) as (X1 & X2), (E2 q Hq) as (Y1 & Y2).
  destruct (inb_dec (dims ar) (below w p q)) as [B|B]; [rewrite X1, Y1 by exact B; reflexivity|rewrite X2, Y2 by exact B; reflexivity].
Qed.

Section Cells.
  Context {St A : Type} (zero : A) (f : arr Z -> arr A -> eff St (val A)) (ar : arr A) (Hwf : wf ar)
          (w : list Z) (Hw : Forall (fun d => 0 < d) w) (Hr : length w = length (dims ar)) (Hs : 0 < size w) (Hne : w <> []).
  Definition st_call (p : list Z) : eff St A :=
    let! v := f (mkArr [zlen (dims ar)] (center_offset w p)) (window zero ar w p) in scalar_result v.
  Lemma st_cells_map is : forall ps, Forall2 (fun i p => ic_indexes (strides (dims ar)) i = Ok p /\ inb (dims ar) p) is ps -> forall s,
    st_cells zero f ar (strides (dims ar)) w (zerosZ (length w)) is s = mapE st_call ps s.
  Proof using Hwf Hw Hr Hs Hne.
    induction is as [|i is IH]; intros ps H s; inversion H as [|? p ? ps' (H1 & H2) H3]; subst; [reflexivity|].
    cbn [st_cells mapE]. unfold ebind at 1, elift at 1. rewrite H1. unfold ebind at 1, elift at 1.
    rewrite Prod_size by exact Hne. rewrite (st_loop_window zero ar Hwf w Hw Hr p H2 Hs).
    unfold st_call. change (mkArr w (elems (window zero ar w p))) with (window zero ar w p).
    rewrite ebind_assoc. apply ebind_ext; [reflexivity|]. intros v t. apply ebind_ext; [reflexivity|]. intros x t'.
    apply ebind_ext; [apply IH; exact H3|]. reflexivity.
  Qed.
End Cells.
