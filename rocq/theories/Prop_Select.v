(* Prop_Select.v -- C142: selective assignment through replicate, compress, expand
   and through functions with an axis. *)
From Verif Require Import Base M_Array S_Array S_Structural P_Array M_Structural P_Reverse P_Take P_Structural Prop_Structural Eff P_Reduce P_Search M_Reduce S_Reduce P_Replicate Prop_Reduce M_Index S_Index P_Index P_Assign Prop_Index M_Select P_Select P_Operators P_Decode3 P_Decode4 P_Decode5.
Open Scope Z_scope.

Lemma positions_line {A} (a : arr A) pre n j : wf a -> dims a = pre ++ [n] -> inb pre j ->
  let P := mkArr (dims a) (map (fun i => i + 1) (zseq (zlen (elems a)))) in
  zlen (line P (zlen pre) n j) = n /\ forall p, 0 <= p < n -> znth (line P (zlen pre) n j) p = Some (pos (dims a) (j ++ [p]) + 1).
Proof.
  intros Hw Hd Hj P. destruct (wf_positions1 a Hw) as [Wp Ep]. fold P in Wp, Ep.
  destruct (line_ok P (zlen pre) n j Wp) as [L1 L2].
  { cbn [dims P]. rewrite Hd, znth_app_r by lia. rewrite Z.sub_diag. reflexivity. }
  { cbn [dims P]. rewrite Hd, del_snoc. exact Hj. }
  split; [exact L1|]. intros p Hp. rewrite L2 by exact Hp. rewrite ins_last by (apply inb_zlen; exact Hj). apply Ep. rewrite Hd. apply inb_app; [exact Hj|apply inb_one; exact Hp].
Qed.
Lemma rows_elem {A} pre m (rowf : list Z -> list A) r : rows_at (pre ++ [m]) (zlen pre) (all_idx pre) (map rowf (all_idx pre)) r ->
  forall j t, inb pre j -> 0 <= t < zlen (rowf j) -> elem r (j ++ [t]) = znth (rowf j) t.
Proof.
  intros (_ & _ & HF) j t Hj Ht. apply In_all_idx in Hj as Hin. apply In_znth in Hin as [q Hq].
  assert (Hrow : znth (map rowf (all_idx pre)) q = Some (rowf j)) by (rewrite znth_map, Hq; reflexivity).
  destruct (Forall2_znth _ _ _ HF q _ _ Hq Hrow) as [_ Hv].
  rewrite <- Hv by exact Ht. f_equal. symmetry. apply ins_last. apply inb_zlen. exact Hj.
Qed.

Section R.
  Context {S A : Type} (k : akind A).
  (* (cs/A)←X: an element with a positive count gets the last of the elements of X
     that stand for its copies; one with count zero or a negative count (whose
     places in cs/A are filled) keeps its value *)
  Theorem C142_replicate cs (a X : arr A) pre (s : S) : wf a -> dims a = pre ++ [zlen cs] -> wf X -> dims X = pre ++ [sumZ (map Z.abs cs)] ->
    let asg := assignScalar k None (replicateSelection (vec cs)) (Arr X) a in
    let first i := sumZ (map Z.abs (firstn (Z.to_nat i) cs)) in
    exists b, fst asg s = (Ok tt, s) /\ snd asg s = b /\ wf b /\ dims b = dims a /\
      (forall j i c v, inb pre j -> znth cs i = Some c -> 0 < c -> elem X (j ++ [first i + c - 1]) = Some v -> exists y, elem b (j ++ [i]) = Some y /\ stored k v y) /\
      (forall j i c, inb pre j -> znth cs i = Some c -> c <= 0 -> elem b (j ++ [i]) = elem a (j ++ [i])).
  Proof.
    intros Hw Hd HX HdX asg first. set (n := zlen cs) in *. set (srcs := replicated None cs (map Some (zseq n))).
    assert (Hn : 0 <= n) by apply zlen_nonneg. assert (L0 : zlen cs = zlen (map Some (zseq n))) by (rewrite zlen_map, zlen_zseq; lia).
    assert (Ls : zlen srcs = sumZ (map Z.abs cs)).
    { unfold srcs. rewrite replicated_rb, widths_blocks by apply rb_nonneg. pose proof (widths_rb (@None Z) (length (rb None cs (map Some (zseq n)))) cs _ L0) as W. rewrite firstn_all in W. rewrite W, firstn_all2; [reflexivity|].
      unfold rb. rewrite map_length, combine_length. unfold zlen in L0. lia. }
    (* what srcs holds at t *)
    assert (HS : forall t o, znth srcs t = Some o <-> exists e c, znth cs e = Some c /\ o = (if 0 <=? c then Some e else None) /\ first e <= t < first e + Z.abs c).
    { intros t o. unfold srcs. rewrite replicated_rb, (blocks_znth _ (rb_nonneg _ _ _)). split.
      - intros (e & w & He & Hr). rewrite znth_rb in He by exact L0. rewrite widths_rb in Hr by exact L0. destruct (znth cs e) as [c|] eqn:Ec; [|discriminate].
        pose proof (znth_some_range _ _ _ Ec). rewrite znth_map, znth_zseq in He by (fold n in H; lia). cbn in He. injection He as <- <-. exists e, c. auto.
      - intros (e & c & Ec & -> & Hr). exists e, (Z.abs c). pose proof (znth_some_range _ _ _ Ec). rewrite znth_rb, Ec, znth_map, znth_zseq by (try exact L0; fold n in H; lia). split; [reflexivity|]. rewrite widths_rb by exact L0. exact Hr. }
    assert (HR : forall z (l : list Z), zlen l = n -> zlen (replicated z cs l) = zlen srcs /\ forall t o, znth srcs t = Some o -> znth (replicated z cs l) t = match o with Some p => znth l p | None => Some z end).
    { intros z l Hl. assert (L1 : zlen cs = zlen l) by (unfold n in Hl; lia). split.
      - rewrite Ls, replicated_rb, widths_blocks by apply rb_nonneg. pose proof (widths_rb z (length (rb z cs l)) cs l L1) as W. rewrite firstn_all in W. rewrite W, firstn_all2; [reflexivity|].
        unfold rb. rewrite map_length, combine_length. unfold zlen in L1. lia.
      - intros t o Ht. apply HS in Ht as (e & c & Ec & -> & Hr). pose proof (znth_some_range _ _ _ Ec). destruct (znth_in_range l e) as [x Hx]; [lia|].
        rewrite replicated_rb. replace (match (if 0 <=? c then Some e else None) with Some p => znth l p | None => Some z end) with (Some (if 0 <=? c then x else z)) by (destruct (0 <=? c); congruence).
        apply (blocks_znth _ (rb_nonneg _ _ _)). exists e, (Z.abs c). rewrite znth_rb, Ec, Hx by exact L1. split; [reflexivity|]. rewrite widths_rb by exact L1. exact Hr. }
    (* the array of positions *)
    destruct (wf_positions1 a Hw) as [Wp _]. set (P := mkArr (dims a) (map (fun i => i + 1) (zseq (zlen (elems a))))) in *.
    destruct (C36_replicate Z 0 cs P (-1) (zlen pre) n Wp) as (r & Er & Hrows).
    { cbn [dims P]. rewrite Hd. unfold norm_axis. rewrite zlen_app. change (zlen [n]) with 1. cbn. lia. }
    { cbn [dims P]. rewrite Hd, znth_app_r by lia. rewrite Z.sub_diag. reflexivity. }
    { reflexivity. }
    cbn [dims P] in Hrows. rewrite Hd, del_snoc in Hrows. replace (zupd (pre ++ [n]) (zlen pre) (sumZ (map Z.abs cs))) with (pre ++ [sumZ (map Z.abs cs)]) in Hrows by (symmetry; apply zupd_snoc).
    rewrite <- Ls in Hrows, HdX. pose proof Hrows as (Wr & Dr & _).
    destruct (lines_assign k (fun v => Replicate 0 (vec cs) v (-1)) a pre n srcs X r s Hw Hd HX HdX Er Wr Dr) as (b & E1 & E2 & Wb & Db & V1 & V2).
    { intros t p Ht. apply HS in Ht as (e & c & Ec & Ho & _). pose proof (znth_some_range _ _ _ Ec). destruct (0 <=? c); [injection Ho as <-; fold n in H; lia|discriminate]. }
    { intros j t Hj Ht. destruct (positions_line a pre n j Hw Hd Hj) as [Q1 Q2]. fold P in Q1, Q2. destruct (HR 0 (line P (zlen pre) n j) Q1) as [R1 R2].
      rewrite (rows_elem pre (zlen srcs) (fun j => replicated 0 cs (line P (zlen pre) n j)) r Hrows j t Hj) by (rewrite R1; exact Ht).
      destruct (znth_in_range srcs t Ht) as [o Ho]. rewrite (R2 _ _ Ho), Ho. destruct o as [p|]; [|reflexivity].
      apply Q2. apply HS in Ho as (e & c & Ec & Ho & _). pose proof (znth_some_range _ _ _ Ec). destruct (0 <=? c); [injection Ho as <-; fold n in H; lia|discriminate]. }
    exists b. split; [exact E1|]. split; [exact E2|]. split; [exact Wb|]. split; [exact Db|]. split.
    - intros j i c v Hj Hc Hpos Hv. apply (V1 j (first i + c - 1) i v Hj); [|intros t' Ht' H|exact Hv].
      + apply HS. exists i, c. split; [exact Hc|]. split; [replace (0 <=? c) with true by lia; reflexivity|]. lia.
      + apply HS in H as (e & c' & Hc' & Ho & Hr). destruct (0 <=? c'); [|discriminate]. injection Ho as <-. assert (c' = c) by congruence. subst c'. lia.
    - intros j i c Hj Hc Hneg. pose proof (znth_some_range _ _ _ Hc). apply V2; [apply inb_app; [exact Hj|apply inb_one; unfold n; lia]|]. intros Hin. apply In_znth in Hin as [t Ht]. apply HS in Ht as (e & c' & Hc' & Ho & Hr).
      destruct (0 <=? c') eqn:E; [|discriminate]. injection Ho as <-. assert (c' = c) by congruence. subst c'. lia.
  Qed.
End R.
Print Assumptions C142_replicate.

Lemma compressed_stored {A} (R : A -> A -> Prop) : forall bs (l xs : list A), bools bs -> zlen bs = zlen l -> zlen xs = sumZ (map Z.abs bs) ->
  (forall i c v, znth bs i = Some c -> 0 < c -> znth xs (sumZ (map Z.abs (firstn (Z.to_nat i) bs)) + c - 1) = Some v -> exists y, znth l i = Some y /\ R v y) ->
  Forall2 R xs (map snd (filter (fun p => fst p =? 1) (combine bs l))).
Proof.
  induction bs as [|c bs IH]; intros l xs Hb HL HX HV.
  - destruct xs; [constructor|]. rewrite zlen_cons in HX. pose proof (zlen_nonneg xs). change (sumZ (map Z.abs [])) with 0 in HX. lia.
  - destruct l as [|x l]; [rewrite zlen_cons, zlen_nil in HL; pose proof (zlen_nonneg bs); lia|]. rewrite !zlen_cons in HL. inversion Hb as [|c0 b0 Hc Hb']; subst. cbn [map sumZ fold_right] in HX. fold (sumZ (map Z.abs bs)) in HX.
    assert (Step : forall i c' v, znth bs i = Some c' -> 0 < c' -> forall q, q = sumZ (map Z.abs (firstn (Z.to_nat i) bs)) -> znth xs (Z.abs c + q + c' - 1) = Some v -> exists y, znth l i = Some y /\ R v y).
    { intros i c' v Hi Hp q -> Hv. pose proof (znth_some_range _ _ _ Hi). destruct (HV (i + 1) c' v) as (y & Hy & HR); [rewrite znth_cons_pos by lia; replace (i + 1 - 1) with i by lia; exact Hi|exact Hp| |].
      - replace (Z.to_nat (i + 1)) with (Datatypes.S (Z.to_nat i)) by lia. exact Hv.
      - rewrite znth_cons_pos in Hy by lia. replace (i + 1 - 1) with i in Hy by lia. exists y. auto. }
    cbn [combine filter fst]. destruct (Z.eqb_spec c 1) as [->|Hn].
    + destruct xs as [|v xs]; [rewrite zlen_nil in HX|].
      { assert (0 <= sumZ (map Z.abs bs)); [|lia]. clear. induction bs; cbn; [lia|]. unfold sumZ in IHbs. lia. }
      rewrite zlen_cons in HX. cbn [map snd]. destruct (HV 0 1 v eq_refl) as (y & Hy & HR); [lia|reflexivity|]. rewrite znth_cons_0 in Hy. injection Hy as ->. constructor; [exact HR|].
      apply IH; [exact Hb'|lia|lia|]. intros i c' v' Hi Hp Hv. apply (Step i c' v' Hi Hp _ eq_refl). pose proof (znth_some_range _ _ _ Hv).
      rewrite znth_cons_pos by lia. rewrite <- Hv. f_equal; lia.
    + assert (c = 0) by lia. subst c. apply IH; [exact Hb'|lia|lia|]. intros i c' v' Hi Hp Hv. apply (Step i c' v' Hi Hp _ eq_refl). rewrite <- Hv. f_equal; lia.
Qed.
Definition inb_sumbool (ds idx : list Z) : {inb ds idx} + {~ inb ds idx}.
Proof.
  unfold inb. revert idx. induction ds as [|d ds IH]; intros [|i idx]; try (right; intros H; inversion H; fail); [left; constructor|].
  destruct (Z_le_dec 0 i); [|right; intros H; inversion H; lia]. destruct (Z_lt_dec i d); [|right; intros H; inversion H; lia].
  destruct (IH idx); [left; constructor; [lia|assumption]|right; intros H; inversion H; contradiction].
Defined.
Section C.
  Context {S A : Type} (k : akind A).
  (* (bs/A)←X for a boolean bs: afterwards bs/A is X, the elements that are not
     marked are unchanged *)
  Theorem C142_compress (zero : A) bs (l xs : list A) (s : S) : bools bs -> zlen bs = zlen l -> zlen xs = sumZ bs ->
    let asg := assignScalar k None (replicateSelection (vec bs)) (Arr (vec xs)) (vec l) in
    exists l' ys, fst asg s = (Ok tt, s) /\ snd asg s = vec l' /\ zlen l' = zlen l /\
      Replicate zero (vec bs) (Arr (vec l')) (-1) = Ok (Arr (vec ys)) /\ Forall2 (stored k) xs ys /\
      (forall i, znth bs i = Some 0 -> znth l' i = znth l i).
  Proof.
    intros Hb HL HX asg. assert (HA : map Z.abs bs = bs) by (clear - Hb; induction Hb as [|c l Hc _ IH]; [reflexivity|]; cbn; rewrite IH; f_equal; lia).
    assert (wfv : forall (m : list A), wf (vec m)) by (intros m; split; [discriminate|]; split; [constructor; [apply zlen_nonneg|constructor]|]; cbn; lia).
    destruct (C142_replicate k bs (vec l) (vec xs) [] s (wfv l)) as (b & E1 & E2 & Wb & Db & V1 & V2); [cbn; congruence|apply wfv|cbn; rewrite HA; congruence|].
    destruct b as [db lb]. cbn [dims vec] in Db. subst db. destruct Wb as (_ & _ & Wl). cbn in Wl.
    assert (EV : forall (m : list A) d i, zlen m = d -> elem (mkArr [d] m) [i] = znth m i) by (intros m d i <-; unfold elem; cbn [dims elems pos size]; f_equal; lia).
    assert (Ll : zlen lb = zlen l) by lia. assert (Hvec : mkArr [zlen l] lb = vec lb) by (unfold vec; congruence).
    exists lb, (map snd (filter (fun p => fst p =? 1) (combine bs lb))). split; [exact E1|]. split; [fold asg in E2; rewrite E2; exact Hvec|]. split; [exact Ll|].
    split; [apply C36_compress; [exact Hb|lia]|]. split.
    - apply compressed_stored; [exact Hb|lia|rewrite HA; exact HX|]. intros i c v Hi Hp Hv. destruct (V1 [] i c v) as (y & Hy & HR); [constructor|exact Hi|exact Hp| |].
      + cbn [app]. unfold vec. rewrite EV by reflexivity. exact Hv.
      + cbn [app] in Hy. rewrite EV in Hy by exact Ll. eauto.
    - intros i Hi. specialize (V2 [] i 0 ltac:(constructor) Hi ltac:(lia)). cbn [app] in V2. rewrite EV in V2 by exact Ll. unfold vec in V2. rewrite EV in V2 by reflexivity. exact V2.
  Qed.
  (* (cs\A)←X: every element of A gets the last of the elements of X that stand for
     it; those that stand for fill elements are ignored *)
  Theorem C142_expand cs (a X : arr A) pre n (s : S) : wf a -> dims a = pre ++ [n] -> cs <> [] -> positives cs = n -> (n <> 1 \/ zlen cs <= 1) ->
    wf X -> dims X = pre ++ [sumZ (map (fun c => Z.max 1 (Z.abs c)) cs)] ->
    let asg := assignScalar k None (expandSelection (Arr (vec cs))) (Arr X) a in
    let first i := sumZ (map (fun c => Z.max 1 (Z.abs c)) (firstn (Z.to_nat i) cs)) in
    exists b, fst asg s = (Ok tt, s) /\ snd asg s = b /\ wf b /\ dims b = dims a /\
      (forall j e c v, inb pre j -> znth cs e = Some c -> 0 < c -> elem X (j ++ [first e + c - 1]) = Some v ->
         exists y, elem b (j ++ [positives (firstn (Z.to_nat e) cs)]) = Some y /\ stored k v y).
  Proof.
    intros Hw Hd Hne Hpos H1 HX HdX asg first. set (srcs := expanded None cs (map Some (zseq n))).
    assert (Hn : 0 <= n) by (subst n; apply zlen_nonneg). assert (L0 : positives cs = zlen (map Some (zseq n))) by (rewrite zlen_map, zlen_zseq; lia).
    assert (LE : forall X z (l : list X), positives cs = zlen l -> zlen (expanded z cs l) = sumZ (map (fun c => Z.max 1 (Z.abs c)) cs)).
    { intros X0 z l Hl. rewrite expanded_eb, widths_blocks by apply eb_nonneg. pose proof (widths_eb z (length (eb z cs l) + length cs) cs l Hl) as W. rewrite !firstn_all2 in W by lia. exact W. }
    assert (Ls : zlen srcs = sumZ (map (fun c => Z.max 1 (Z.abs c)) cs)) by (apply LE, L0).
    assert (PR : forall e c, znth cs e = Some c -> 0 < c -> 0 <= positives (firstn (Z.to_nat e) cs) < n).
    { intros e c Hc Hp. pose proof (znth_some_range _ _ _ Hc) as Hr. rewrite <- Hpos. clear - Hc Hp Hr. revert e Hc Hr. induction cs as [|x l IH]; intros e Hc Hr; [apply znth_In in Hc; contradiction|].
      rewrite (positives_cons x l). assert (0 <= positives l) by apply zlen_nonneg. destruct (Z.eq_dec e 0) as [->|].
      - rewrite znth_cons_0 in Hc. injection Hc as ->. change (positives (firstn (Z.to_nat 0) _)) with 0. replace (0 <? c) with true by lia. lia.
      - rewrite znth_cons_pos in Hc by lia. rewrite zlen_cons in Hr. specialize (IH (e - 1) Hc ltac:(lia)). replace (Z.to_nat e) with (Datatypes.S (Z.to_nat (e - 1))) by lia. cbn [firstn]. rewrite positives_cons. destruct (0 <? x); lia. }
    assert (HS : forall t o, znth srcs t = Some o <-> exists e c, znth cs e = Some c /\ o = (if 0 <? c then Some (positives (firstn (Z.to_nat e) cs)) else None) /\ first e <= t < first e + Z.max 1 (Z.abs c)).
    { intros t o. unfold srcs. rewrite expanded_eb, (blocks_znth _ (eb_nonneg _ _ _)). split.
      - intros (e & w & He & Hr). rewrite znth_eb in He by exact L0. rewrite widths_eb in Hr by exact L0. destruct (znth cs e) as [c|] eqn:Ec; [|discriminate].
        exists e, c. split; [exact Ec|]. destruct (0 <? c) eqn:E0.
        + rewrite znth_map, znth_zseq in He by (apply (PR e c Ec); lia). cbn in He. injection He as <- <-. split; [reflexivity|]. unfold first. lia.
        + injection He as <- <-. auto.
      - intros (e & c & Ec & -> & Hr). exists e, (Z.max 1 (Z.abs c)). rewrite znth_eb, Ec by exact L0. rewrite widths_eb by exact L0. split; [|exact Hr]. destruct (0 <? c) eqn:E0; [|reflexivity].
        rewrite znth_map, znth_zseq by (apply (PR e c Ec); lia). cbn. do 2 f_equal. lia. }
    assert (HR : forall z (l : list Z), zlen l = n -> zlen (expanded z cs l) = zlen srcs /\ forall t o, znth srcs t = Some o -> znth (expanded z cs l) t = match o with Some p => znth l p | None => Some z end).
    { intros z l Hl. assert (L1 : positives cs = zlen l) by lia. split; [rewrite LE by exact L1; congruence|].
      intros t o Ht. apply HS in Ht as (e & c & Ec & -> & Hr). rewrite expanded_eb. destruct (0 <? c) eqn:E0.
      - destruct (znth_in_range l (positives (firstn (Z.to_nat e) cs))) as [x Hx]; [pose proof (PR e c Ec); lia|]. rewrite Hx.
        apply (blocks_znth _ (eb_nonneg _ _ _)). exists e, c. rewrite znth_eb, Ec, E0, Hx by exact L1. split; [reflexivity|]. rewrite widths_eb by exact L1. unfold first in Hr. lia.
      - apply (blocks_znth _ (eb_nonneg _ _ _)). exists e, (Z.max 1 (Z.abs c)). rewrite znth_eb, Ec, E0 by exact L1. split; [reflexivity|]. rewrite widths_eb by exact L1. exact Hr. }
    destruct (wf_positions1 a Hw) as [Wp _]. set (P := mkArr (dims a) (map (fun i => i + 1) (zseq (zlen (elems a))))) in *.
    destruct (C37_expand Z 0 cs P (-1) (zlen pre) n Wp) as (r & Er & Hrows).
    { cbn [dims P]. rewrite Hd. unfold norm_axis. rewrite zlen_app. change (zlen [n]) with 1. cbn. lia. }
    { cbn [dims P]. rewrite Hd, znth_app_r by lia. rewrite Z.sub_diag. reflexivity. }
    { exact H1. } { exact Hpos. } { exact Hne. }
    cbn [dims P] in Hrows. rewrite Hd, del_snoc, zupd_snoc in Hrows. rewrite <- Ls in Hrows, HdX. pose proof Hrows as (Wr & Dr & _).
    assert (HP : forall t p, znth srcs t = Some (Some p) -> 0 <= p < n).
    { intros t p Ht. apply HS in Ht as (e & c & Ec & Ho & _). destruct (0 <? c) eqn:E0; [|discriminate]. injection Ho as ->. apply (PR e c Ec). lia. }
    destruct (lines_assign k (fun v => Expand 0 (Arr (vec cs)) v (-1)) a pre n srcs X r s Hw Hd HX HdX Er Wr Dr HP) as (b & E1 & E2 & Wb & Db & V1 & V2).
    { intros j t Hj Ht. destruct (positions_line a pre n j Hw Hd Hj) as [Q1 Q2]. fold P in Q1, Q2. destruct (HR 0 (line P (zlen pre) n j) Q1) as [R1 R2].
      rewrite (rows_elem pre (zlen srcs) (fun j => expanded 0 cs (line P (zlen pre) n j)) r Hrows j t Hj) by (rewrite R1; exact Ht).
      destruct (znth_in_range srcs t Ht) as [o Ho]. rewrite (R2 _ _ Ho), Ho. destruct o as [p|]; [|reflexivity]. apply Q2. apply (HP t p Ho). }
    exists b. split; [exact E1|]. split; [exact E2|]. split; [exact Wb|]. split; [exact Db|].
    intros j e c v Hj Hc Hp Hv. apply (V1 j (first e + c - 1) _ v Hj); [|intros t' Ht' H|exact Hv].
    - apply HS. exists e, c. split; [exact Hc|]. split; [replace (0 <? c) with true by lia; reflexivity|]. lia.
    - apply HS in H as (e' & c' & Hc' & Ho & Hr). destruct (0 <? c') eqn:E0; [|discriminate]. injection Ho as Ho.
      assert (e' = e); [|subst e'; assert (c' = c) by congruence; subst c'; lia].
      (* the number of positive entries before e determines e *)
      clear - Hc Hc' Ho E0 Hp. pose proof (znth_some_range _ _ _ Hc) as R1. pose proof (znth_some_range _ _ _ Hc') as R2. revert e e' Hc Hc' Ho R1 R2. induction cs as [|x l IH]; intros e e' Hc Hc' Ho R1 R2; [apply znth_In in Hc; contradiction|].
      rewrite zlen_cons in *. assert (N : forall m, 0 <= positives (firstn m l)) by (intros; apply zlen_nonneg).
      destruct (Z.eq_dec e 0) as [->|]; destruct (Z.eq_dec e' 0) as [->|]; try reflexivity.
      + rewrite znth_cons_0 in Hc. injection Hc as ->. replace (Z.to_nat e') with (Datatypes.S (Z.to_nat (e' - 1))) in Ho by lia. cbn [firstn] in Ho. rewrite positives_cons in Ho. replace (0 <? c) with true in Ho by lia. change (positives (firstn (Z.to_nat 0) _)) with 0 in Ho. specialize (N (Z.to_nat (e' - 1))). lia.
      + rewrite znth_cons_0 in Hc'. injection Hc' as ->. replace (Z.to_nat e) with (Datatypes.S (Z.to_nat (e - 1))) in Ho by lia. cbn [firstn] in Ho. rewrite positives_cons in Ho. rewrite E0 in Ho. change (positives (firstn (Z.to_nat 0) _)) with 0 in Ho. specialize (N (Z.to_nat (e - 1))). lia.
      + rewrite znth_cons_pos in Hc, Hc' by lia. replace (Z.to_nat e) with (Datatypes.S (Z.to_nat (e - 1))) in Ho by lia. replace (Z.to_nat e') with (Datatypes.S (Z.to_nat (e' - 1))) in Ho by lia. cbn [firstn] in Ho. rewrite !positives_cons in Ho.
        specialize (IH (e - 1) (e' - 1) Hc Hc' ltac:(lia) ltac:(lia) ltac:(lia)). lia.
  Qed.
  (* a function with an axis: after (F[x]A)←X, F[x]A is X, and no other cell has
     changed *)
  Theorem C142_axis F (a : arr A) ds' h X (s : S) : picks F (dims a) ds' h -> wf a -> wf X -> dims X = ds' ->
    let asg := assignScalar k None (selectSimple (F Z)) (Arr X) a in
    exists b r, fst asg s = (Ok tt, s) /\ snd asg s = b /\ wf b /\ dims b = dims a /\
      F A (Arr b) = Ok (Arr r) /\ dims r = dims X /\ Forall2 (stored k) (elems X) (elems r) /\
      (forall c, inb (dims a) c -> (forall idx, inb ds' idx -> h idx <> c) -> elem b c = elem a c).
  Proof.
    intros HPk Hw HX HdX asg. pose proof HPk as [P1 P2 P3]. destruct (wf_positions a Hw) as [Wp Ep]. destruct (wf_positions1 a Hw) as [Wp1 Ep1].
    (* the selection is the one of the primitive function *)
    destruct (P3 Z _ Wp eq_refl) as (J & EJ & J1 & J2 & J3). destruct (P3 Z _ Wp1 eq_refl) as (J' & EJ' & J1' & J2' & J3').
    assert (HJ : selectSimple (F Z) a = selection (F Z) a).
    { unfold selectSimple, selection. rewrite EJ, EJ'. cbn [obind selarr]. f_equal. destruct J as [dj lj], J' as [dj' lj']. cbn [dims elems] in *. subst dj dj'. f_equal.
      destruct J1 as (W1 & W2 & W3), J1' as (W1' & W2' & W3'). cbn [dims elems] in *. apply znth_ext; [rewrite zlen_map; lia|]. intros i Hi. rewrite zlen_map in Hi.
      destruct (ic_indexes_spec ds' i W2 ltac:(lia)) as (idx & _ & Hin & Hpos). specialize (J3 idx Hin). specialize (J3' idx Hin). specialize (P1 idx Hin). rewrite Ep in J3 by exact P1. rewrite Ep1 in J3' by exact P1.
      unfold elem in J3, J3'. cbn [dims elems] in J3, J3'. rewrite Hpos in J3, J3'. rewrite znth_map, J3', J3. cbn. f_equal. lia. }
    subst asg. destruct (C77_put_get k F a ds' h X s HPk Hw HX HdX) as (b & r & H). exists b, r. unfold assignScalar in *. cbn [fst snd] in *. rewrite HJ. exact H.
  Qed.
  (* a take with an axis may take more than there is: the elements of X beyond the
     axis are ignored *)
  Theorem C142_axis_overtake (a X : arr A) l x0 xo cs (s : S) : wf a -> wf X -> l <> [] -> zlen l <= zlen (dims a) ->
    NoDup x0 -> Forall (fun i => 0 <= i < zlen (dims a)) x0 -> (xo = Some x0 \/ (xo = None /\ x0 = [])) ->
    counts_for (x0 ++ missing_axes (zlen (dims a)) x0) l (fun i => match znth (dims a) i with Some d => d | None => 0 end) cs ->
    dims X = map Z.abs cs ->
    let asg := assignScalar k None (axisTakeDropSelection true (Arr (vec l)) xo) (Arr X) a in
    exists b, fst asg s = (Ok tt, s) /\ snd asg s = b /\ wf b /\ dims b = dims a /\
      (forall idx v, inb (map Z.abs cs) idx -> inb (dims a) (shifted (dims a) cs idx) -> elem X idx = Some v -> exists y, elem b (shifted (dims a) cs idx) = Some y /\ stored k v y) /\
      (forall c, inb (dims a) c -> (forall idx, inb (map Z.abs cs) idx -> shifted (dims a) cs idx <> c) -> elem b c = elem a c).
  Proof.
    intros Hw HX Hl Hll Hnd Hf Hx Hcs HdX asg. destruct (wf_positions1 a Hw) as [Wp Ep]. set (P := mkArr (dims a) _) in *.
    destruct (C10_take Z 0 0 l P x0 xo cs Wp Hl Hll Hnd Hf Hx Hcs) as (J & EJ & WJ & DJ & VJ).
    set (h := fun idx => if inb_sumbool (dims a) (shifted (dims a) cs idx) then Some (shifted (dims a) cs idx) else None).
    destruct (simple_ok (fun v => fst (takedrop 0 0 true (Arr (vec l)) v xo)) a (map Z.abs cs) h J Hw EJ WJ DJ) as (I & EI & HI).
    { intros idx Hi. unfold h. destruct (inb_sumbool (dims a) (shifted (dims a) cs idx)) as [Hb|Hb]; [rewrite (proj1 (VJ idx Hi) Hb); apply Ep, Hb|apply (proj2 (VJ idx Hi)), Hb]. }
    assert (Lc : zlen cs = zlen (dims a)).
    { destruct Hcs as [-> _]. destruct (complete_axis_ok (zlen (dims a)) x0 (zlen_nonneg _) Hnd Hf) as [_ (_ & -> & _)]. reflexivity. }
    destruct (sel_last k _ a (map Z.abs cs) h I X s Hw HX HdX EI) as (b & E1 & E2 & Wb & Db & V1 & V2).
    { intros idx c Hi Hh. unfold h in Hh. destruct (inb_sumbool _ _) as [Hb|Hb]; [injection Hh as <-; exact Hb|discriminate]. }
    { exact HI. }
    exists b. split; [exact E1|]. split; [exact E2|]. split; [exact Wb|]. split; [exact Db|]. split.
    - intros idx v Hi Hb Hv. apply (V1 idx _ v Hi); [unfold h; destruct (inb_sumbool _ _); [reflexivity|contradiction]| |exact Hv].
      intros idx' Hi' Hp Hh. unfold h in Hh. destruct (inb_sumbool (dims a) (shifted (dims a) cs idx')); [|discriminate]. injection Hh as Hh. apply inb_zlen in Hi as Z1. apply inb_zlen in Hi' as Z2. rewrite zlen_map in *.
      apply shifted_inj in Hh; [subst idx'; lia|lia|lia|lia].
    - intros c Hc Hn. apply V2; [exact Hc|]. intros idx Hi Hh. unfold h in Hh. destruct (inb_sumbool _ _) as [Hb|Hb]; [|discriminate]. injection Hh as Hh. apply (Hn idx Hi Hh).
  Qed.
  (* ⌿ and ⍀ cannot be assigned through *)
  Theorem C142_first_axis (a X : arr A) (s : S) : let asg := assignScalar k None noSelection (Arr X) a in fst asg s = (Err, s) /\ snd asg s = a.
  Proof. split; reflexivity. Qed.
End C.
Print Assumptions C142_expand.
Print Assumptions C142_axis.
Print Assumptions C142_axis_overtake.
Example C142_example :
  let k := mkKind false (fun v : Z => Some v) in
  snd (assignScalar k None (replicateSelection (vec [1; 0; 1])) (Arr (vec [8; 9])) (vec [1; 2; 3])) tt = vec [8; 2; 9] /\
  snd (assignScalar k None (replicateSelection (vec [2; -1; 1])) (Arr (mkArr [2; 4] [10; 20; 30; 40; 50; 60; 70; 80])) (mkArr [2; 3] [1; 2; 3; 4; 5; 6])) tt = mkArr [2; 3] [20; 2; 40; 60; 5; 80] /\
  snd (assignScalar k None (expandSelection (Arr (vec [1; 0; 2]))) (Arr (vec [7; 8; 9; 10])) (vec [1; 2])) tt = vec [7; 10] /\
  snd (assignScalar k None (axisTakeDropSelection true (Arr (vec [5])) (Some [0])) (Arr (vec [7; 8; 9; 10; 11])) (vec [1; 2; 3])) tt = vec [7; 8; 9].
Proof. repeat split; reflexivity. Qed.
