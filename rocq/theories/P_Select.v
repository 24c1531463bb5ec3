(* P_Select.v -- proofs for selective assignment through operators. *)
From Verif Require Import Base M_Array S_Array S_Structural P_Array M_Structural P_Reverse P_Take P_Structural Eff P_Reduce P_Search M_Reduce S_Reduce P_Replicate M_Index S_Index P_Index P_Assign Prop_Index M_Select P_Decode3 P_Decode4.
Open Scope Z_scope.

Section SEL.
  Context {S A : Type} (k : akind A).
  (* a selection that may name a cell more than once, or none *)
  Lemma sel_last (sel : arr A -> outcome (arr Z)) (a : arr A) ds' (h : list Z -> option (list Z)) J X (s : S) : wf a -> wf X -> dims X = ds' -> sel a = Ok J ->
    (forall idx c, inb ds' idx -> h idx = Some c -> inb (dims a) c) ->
    is_array ds' (fun idx => Some (match h idx with Some c => pos (dims a) c | None => -1 end)) J ->
    exists b, fst (assignScalar k None sel (Arr X) a) s = (Ok tt, s) /\ snd (assignScalar k None sel (Arr X) a) s = b /\ wf b /\ dims b = dims a /\
      (forall idx c v, inb ds' idx -> h idx = Some c -> (forall idx', inb ds' idx' -> pos ds' idx < pos ds' idx' -> h idx' <> Some c) ->
         elem X idx = Some v -> exists y, elem b c = Some y /\ stored k v y) /\
      (forall c, inb (dims a) c -> (forall idx, inb ds' idx -> h idx <> Some c) -> elem b c = elem a c).
  Proof.
    intros Hw HX HdX E Hin (J1 & J2 & J3). destruct J as [dj I]. cbn [dims] in J2. subst dj. destruct J1 as (_ & Jn & JL). cbn [dims elems] in *. unfold elem in J3. cbn [dims elems] in J3.
    assert (HI : forall j p, znth I j = Some p -> exists idx, inb ds' idx /\ j = pos ds' idx /\ p = match h idx with Some c => pos (dims a) c | None => -1 end).
    { intros j p Hj. pose proof (znth_some_range _ _ _ Hj) as Hr. rewrite JL in Hr. destruct (ic_indexes_spec ds' j Jn Hr) as (idx & _ & Hi & Hp).
      exists idx. split; [exact Hi|]. split; [congruence|]. rewrite <- Hp, J3 in Hj by exact Hi. congruence. }
    destruct HX as (X1 & X2 & X3). rewrite HdX in *.
    destruct (asgn_sel k None sel a ds' I (Arr X) s Hw E) as (l & Hl & HP & E1 & E2).
    { right. cbn [shapeOf]. rewrite HdX. split; [reflexivity|]. unfold sizeOf. cbn [elemsOf]. lia. }
    destruct (assign_all_plain k (stored k) ltac:(left; reflexivity) ltac:(right; assumption) (combine I l) (mkAsg a None) s) as (st & Rn & B & V).
    { apply Forall_forall. intros w Hx. apply In_znth in Hx as [j Hj]. apply znth_combine_inv in Hj as [Hj _]. apply HI in Hj as (idx & Hi & _ & Hp). cbn.
      destruct (h idx) as [c|] eqn:Eh; [right|left; exact Hp]. rewrite Hp. destruct Hw as (_ & _ & ->). apply pos_range. apply (Hin idx c Hi Eh). }
    rewrite Rn in E1, E2. cbn [fst snd] in E1, E2. exists (cur st). split; [exact E1|]. split; [exact E2|]. split; [apply (elem_upd_wf a); assumption|]. destruct B as [B1 _]. split; [exact B1|]. split.
    - intros idx c v Hi Hh Hlast Hv. pose proof (Hin idx c Hi Hh) as Hc. unfold elem in *. rewrite B1. change (cur (mkAsg a None)) with a in *.
      assert (P0 : 0 <= pos (dims a) c) by (pose proof (pos_range _ _ Hc); lia). specialize (V _ P0).
      assert (Hl1 : znth l (pos ds' idx) = Some v).
      { apply (pairs_value I (Arr X)); [exact HP|lia|exact Hi| |lia]. rewrite HdX in Hv. unfold value_for. cbn [elemsOf].
        destruct (Z.eq_dec (zlen (elems X)) 1) as [E0|E0]; [left|right; split; [exact E0|exact Hv]].
        destruct (elems X) as [|x0 [|x1 t]]; [discriminate| |rewrite !zlen_cons in E0; pose proof (zlen_nonneg t); lia].
        pose proof (znth_some_range _ _ _ Hv) as Hr. change (zlen [x0]) with 1 in Hr. replace (pos ds' idx) with 0 in Hv by lia. unfold znth in Hv. cbn in Hv. congruence. }
      assert (HI1 : znth I (pos ds' idx) = Some (pos (dims a) c)) by (rewrite J3, Hh by exact Hi; reflexivity).
      destruct (writes_last (combine I l) (pos ds' idx) (pos (dims a) c) v (znth_combine _ _ _ _ _ HI1 Hl1)) as [t Et]; [|rewrite Et in V; exact V].
      intros m w Hm Hx Hq. apply znth_combine_inv in Hx as [Hx _]. apply HI in Hx as (idx' & Hi' & -> & Hp). apply (Hlast idx' Hi' Hm).
      destruct (h idx') as [c'|] eqn:Eh; [|lia]. f_equal. apply (pos_inj (dims a)); [apply (Hin idx' c' Hi' Eh)|exact Hc|congruence].
    - intros c Hc Hn. unfold elem. rewrite B1. change (cur (mkAsg a None)) with a in *. assert (P0 : 0 <= pos (dims a) c) by (pose proof (pos_range _ _ Hc); lia). specialize (V _ P0).
      rewrite writes_none in V; [exact V|]. intros w Hx Hq. apply In_znth in Hx as [j Hj]. apply znth_combine_inv in Hj as [Hj _]. apply HI in Hj as (idx & Hi & _ & Hp).
      apply (Hn idx Hi). destruct (h idx) as [c'|] eqn:Eh; [|lia]. f_equal. apply (pos_inj (dims a)); [apply (Hin idx c' Hi Eh)|exact Hc|congruence].
  Qed.
  (* selectSimple, given what the function yields on the positions *)
  Lemma simple_ok F (a : arr A) ds' (h : list Z -> option (list Z)) r : wf a ->
    F (Arr (mkArr (dims a) (map (fun i => i + 1) (zseq (zlen (elems a)))))) = Ok (Arr r) -> wf r -> dims r = ds' ->
    (forall idx, inb ds' idx -> elem r idx = Some (match h idx with Some c => pos (dims a) c + 1 | None => 0 end)) ->
    exists J, selectSimple F a = Ok J /\ is_array ds' (fun idx => Some (match h idx with Some c => pos (dims a) c | None => -1 end)) J.
  Proof.
    intros Hw E (R1 & R2 & R3) HD HV. exists (mkArr (dims r) (map (fun i => i - 1) (elems r))). unfold selectSimple. rewrite E. cbn [obind selarr]. split; [reflexivity|].
    split; [split; [exact R1|]; split; [exact R2|]; cbn; rewrite zlen_map; exact R3|]. split; [exact HD|].
    intros idx Hi. specialize (HV idx Hi). unfold elem in *. cbn [dims elems]. rewrite znth_map, HV. cbn. f_equal. destruct (h idx); lia.
  Qed.
End SEL.

(* ---- lists made of blocks ---- *)
Definition blocks {X} (bs : list (X * Z)) : list X := flat_map (fun b => repeat (fst b) (Z.to_nat (snd b))) bs.
Definition widths {X} (bs : list (X * Z)) : Z := sumZ (map snd bs).
Lemma blocks_znth {X} (bs : list (X * Z)) : Forall (fun b => 0 <= snd b) bs -> forall t o, znth (blocks bs) t = Some o <->
  exists e w, znth bs e = Some (o, w) /\ widths (firstn (Z.to_nat e) bs) <= t < widths (firstn (Z.to_nat e) bs) + w.
Proof.
  intros HF. induction HF as [|[x w] bs Hw HF IH]; intros t o.
  - split; [intros H; apply znth_In in H; contradiction|]. intros (e & w & H & _). apply znth_In in H; contradiction.
  - cbn in Hw. unfold blocks. cbn [flat_map fst snd]. fold (blocks bs).
    assert (L : zlen (repeat x (Z.to_nat w)) = w) by (unfold zlen; rewrite repeat_length; lia).
    assert (W : forall e, 0 < e -> widths (firstn (Z.to_nat e) ((x, w) :: bs)) = w + widths (firstn (Z.to_nat (e - 1)) bs)).
    { intros e He. replace (Z.to_nat e) with (Datatypes.S (Z.to_nat (e - 1))) by lia. reflexivity. }
    assert (N : forall e, 0 <= widths (firstn (Z.to_nat e) bs)).
    { intros e. generalize (Z.to_nat e). clear - HF. intros n. revert n. induction HF as [|[y v] bs Hv _ IH]; intros [|n]; unfold widths; cbn; try lia. specialize (IH n). unfold widths, sumZ in IH. cbn in Hv. lia. }
    destruct (Z_lt_le_dec t w) as [Ht|Ht].
    + split.
      * intros H. pose proof (znth_some_range _ _ _ H) as Hr. rewrite znth_app_l in H by lia. exists 0, w. apply znth_In, repeat_spec in H as ->. split; [reflexivity|]. cbn. unfold widths. cbn. lia.
      * intros (e & w' & H & Hr). pose proof (znth_some_range _ _ _ H) as He. destruct (Z.eq_dec e 0) as [->|].
        { unfold znth in H. cbn in H. injection H as -> ->. change (widths _) with 0 in Hr. rewrite znth_app_l by lia. apply znth_repeat. lia. }
        rewrite W in Hr by lia. specialize (N (e - 1)). lia.
    + rewrite znth_app_r by lia. rewrite L, IH. split.
      * intros (e & w' & H & Hr). pose proof (znth_some_range _ _ _ H) as He. exists (e + 1), w'. rewrite znth_cons_pos, W by lia. replace (e + 1 - 1) with e by lia. split; [exact H|lia].
      * intros (e & w' & H & Hr). pose proof (znth_some_range _ _ _ H) as He. destruct (Z.eq_dec e 0) as [->|].
        { unfold znth in H. cbn in H. injection H as -> ->. change (widths _) with 0 in Hr. lia. }
        rewrite znth_cons_pos in H by lia. rewrite W in Hr by lia. exists (e - 1), w'. split; [exact H|lia].
Qed.

(* ---- along the last axis ---- *)
Section LINES.
  Context {S A : Type} (k : akind A).
  Definition at_last (srcs : list (option Z)) (idx : list Z) : option (list Z) :=
    match znth idx (zlen idx - 1) with
    | Some t => match znth srcs t with Some (Some p) => Some (removelast idx ++ [p]) | _ => None end
    | None => None
    end.
  Lemma at_last_snoc srcs j t : at_last srcs (j ++ [t]) = match znth srcs t with Some (Some p) => Some (j ++ [p]) | _ => None end.
  Proof. unfold at_last. rewrite zlen_app. change (zlen [t]) with 1. rewrite znth_app_r by lia. replace (zlen j + 1 - 1 - zlen j) with 0 by lia. rewrite znth_cons_0, removelast_last. reflexivity. Qed.
  Lemma inb_one n p : inb [n] [p] <-> 0 <= p < n.
  Proof. split; [intros H; inversion H; subst; assumption|]. intros H. constructor; [exact H|constructor]. Qed.
  Lemma snoc_pos pre n j t : inb pre j -> pos (pre ++ [n]) (j ++ [t]) = pos pre j * n + t.
  Proof. intros H. rewrite pos_app' by (eapply Forall2_length; exact H). cbn [size pos]. lia. Qed.
  Lemma lines_assign F (a : arr A) pre n srcs X r (s : S) : wf a -> dims a = pre ++ [n] -> wf X -> dims X = pre ++ [zlen srcs] ->
    F (Arr (mkArr (dims a) (map (fun i => i + 1) (zseq (zlen (elems a)))))) = Ok (Arr r) -> wf r -> dims r = pre ++ [zlen srcs] ->
    (forall t p, znth srcs t = Some (Some p) -> 0 <= p < n) ->
    (forall j t, inb pre j -> 0 <= t < zlen srcs -> elem r (j ++ [t]) = Some (match znth srcs t with Some (Some p) => pos (dims a) (j ++ [p]) + 1 | _ => 0 end)) ->
    let asg := assignScalar k None (selectSimple F) (Arr X) a in
    exists b, fst asg s = (Ok tt, s) /\ snd asg s = b /\ wf b /\ dims b = dims a /\
      (forall j t p v, inb pre j -> znth srcs t = Some (Some p) -> (forall t', t < t' -> znth srcs t' <> Some (Some p)) ->
         elem X (j ++ [t]) = Some v -> exists y, elem b (j ++ [p]) = Some y /\ stored k v y) /\
      (forall j p, inb (pre ++ [n]) (j ++ [p]) -> ~ In (Some p) srcs -> elem b (j ++ [p]) = elem a (j ++ [p])).
  Proof.
    intros Hw Hd HX HdX EF Wr Dr Hs Hr asg.
    destruct (simple_ok F a (pre ++ [zlen srcs]) (at_last srcs) r Hw EF Wr Dr) as (J & EJ & HJ).
    { intros idx Hi. apply inb_snoc in Hi as (j & t & -> & Hj & Ht). rewrite Hr, at_last_snoc by assumption. destruct (znth srcs t) as [[p|]|]; reflexivity. }
    destruct (sel_last k (selectSimple F) a (pre ++ [zlen srcs]) (at_last srcs) J X s Hw HX HdX EJ) as (b & E1 & E2 & Wb & Db & V1 & V2).
    { intros idx c Hi. apply inb_snoc in Hi as (j & t & -> & Hj & Ht). rewrite at_last_snoc. destruct (znth srcs t) as [[p|]|] eqn:Et; try discriminate. intros [= <-]. rewrite Hd. apply inb_app; [exact Hj|apply inb_one, (Hs t), Et]. }
    { exact HJ. }
    exists b. split; [exact E1|]. split; [exact E2|]. split; [exact Wb|]. split; [exact Db|]. split.
    - intros j t p v Hj Ht Hlast Hv. pose proof (znth_some_range _ _ _ Ht) as Htr. apply (V1 (j ++ [t])); [apply inb_app; [exact Hj|apply inb_one; exact Htr]|rewrite at_last_snoc, Ht; reflexivity| |exact Hv].
      intros idx' Hi' Hp. apply inb_snoc in Hi' as (j' & t' & -> & Hj' & Ht'). rewrite at_last_snoc. rewrite !snoc_pos in Hp by assumption.
      destruct (znth srcs t') as [[p'|]|] eqn:Et; try discriminate. intros [= E]. apply app_inj_tail in E as [-> ->]. apply (Hlast t'); [lia|exact Et].
    - intros j p Hi Hn. apply V2; [rewrite Hd; exact Hi|]. intros idx Hi'. apply inb_snoc in Hi' as (j' & t' & -> & Hj' & Ht'). rewrite at_last_snoc.
      destruct (znth srcs t') as [[p'|]|] eqn:Et; try discriminate. intros [= E]. apply app_inj_tail in E as [-> ->]. apply Hn. apply (znth_In _ t' _ Et).
  Qed.
End LINES.

(* ---- replicated and expanded as blocks ---- *)
Definition rb {X} (z : X) (cs : list Z) (l : list X) : list (X * Z) := map (fun w => (if 0 <=? fst w then snd w else z, Z.abs (fst w))) (combine cs l).
Lemma replicated_rb {X} (z : X) : forall cs l, replicated z cs l = blocks (rb z cs l).
Proof.
  induction cs as [|c cs IH]; intros [|x l]; try reflexivity. cbn [replicated]. unfold rb, blocks. cbn [combine map flat_map fst snd]. rewrite IH. f_equal. unfold copies.
  destruct (0 <=? c) eqn:E; f_equal; lia.
Qed.
Fixpoint eb {X} (z : X) (cs : list Z) (l : list X) : list (X * Z) :=
  match cs with
  | [] => []
  | c :: cr => if 0 <? c then match l with x :: r => (x, c) :: eb z cr r | [] => [] end else (z, Z.max 1 (Z.abs c)) :: eb z cr l
  end.
Lemma expanded_eb {X} (z : X) : forall cs l, expanded z cs l = blocks (eb z cs l).
Proof.
  induction cs as [|c cs IH]; intros l; [reflexivity|]. cbn [expanded eb]. destruct (0 <? c) eqn:E.
  - destruct l as [|x l]; [reflexivity|]. unfold blocks. cbn [flat_map fst snd]. rewrite IH. reflexivity.
  - unfold blocks. cbn [flat_map fst snd]. rewrite IH. f_equal. destruct (c =? 0) eqn:E0; [replace (Z.to_nat (Z.max 1 (Z.abs c))) with 1%nat by lia; reflexivity|f_equal; lia].
Qed.
Lemma widths_blocks {X} (bs : list (X * Z)) : Forall (fun b => 0 <= snd b) bs -> zlen (blocks bs) = widths bs.
Proof.
  induction 1 as [|[x w] bs Hw _ IH]; [reflexivity|]. unfold blocks, widths. cbn [flat_map map sumZ fold_right fst snd]. rewrite zlen_app. fold (blocks bs). rewrite IH. cbn in Hw. unfold widths, sumZ, zlen. rewrite repeat_length. lia.
Qed.
Lemma znth_rb {X} (z : X) cs l e : zlen cs = zlen l -> znth (rb z cs l) e = match znth cs e, znth l e with Some c, Some x => Some (if 0 <=? c then x else z, Z.abs c) | _, _ => None end.
Proof.
  intros HL. unfold rb. rewrite znth_map. destruct (znth (combine cs l) e) as [[c x]|] eqn:E.
  - apply znth_combine_inv in E as [E1 E2]. cbn in *. rewrite E1, E2. reflexivity.
  - destruct (znth cs e) as [c|] eqn:Ec; [|reflexivity]. destruct (znth l e) as [x|] eqn:El; [|reflexivity]. rewrite (znth_combine _ _ _ _ _ Ec El) in E. discriminate.
Qed.
Lemma widths_rb {X} (z : X) : forall e cs l, zlen cs = zlen l -> widths (firstn e (rb z cs l)) = sumZ (map Z.abs (firstn e cs)).
Proof.
  induction e as [|e IH]; intros [|c cs] [|x l] HL; try reflexivity; try (unfold zlen in HL; cbn in HL; lia). unfold widths, rb. cbn [combine map firstn snd fst sumZ fold_right].
  rewrite !zlen_cons in HL. specialize (IH cs l ltac:(lia)). unfold widths, rb, sumZ in *. cbn. rewrite IH. reflexivity.
Qed.
Lemma rb_nonneg {X} (z : X) cs l : Forall (fun b => 0 <= snd b) (rb z cs l).
Proof. apply Forall_forall. intros b Hb. apply in_map_iff in Hb as ([c x] & <- & _). cbn. lia. Qed.
Lemma eb_nonneg {X} (z : X) : forall cs l, Forall (fun b => 0 <= snd b) (eb z cs l).
Proof. induction cs as [|c cs IH]; intros l; cbn [eb]; [constructor|]. destruct (0 <? c) eqn:E; [destruct l; constructor; [cbn; lia|apply IH]|constructor; [cbn; lia|apply IH]]. Qed.
Lemma znth_eb {X} (z : X) : forall cs l e, positives cs = zlen l -> znth (eb z cs l) e =
  match znth cs e with Some c => if 0 <? c then option_map (fun x => (x, c)) (znth l (positives (firstn (Z.to_nat e) cs))) else Some (z, Z.max 1 (Z.abs c)) | None => None end.
Proof.
  induction cs as [|c cs IH]; intros l e HL.
  { cbn [eb]. unfold znth. destruct (e <? 0); [reflexivity|]. destruct (Z.to_nat e); reflexivity. }
  rewrite positives_cons in HL. pose proof (zlen_nonneg (filter (fun c => 0 <? c) cs)) as HP. fold (positives cs) in HP. cbn [eb].
  destruct (Z_lt_le_dec e 0) as [He|He]; [unfold znth; replace (e <? 0) with true by lia; reflexivity|].
  destruct (0 <? c) eqn:E.
  - destruct l as [|x l]; [rewrite zlen_nil in HL; lia|]. rewrite zlen_cons in HL. destruct (Z.eq_dec e 0) as [->|].
    + rewrite !znth_cons_0, E. change (positives (firstn (Z.to_nat 0) _)) with 0. reflexivity.
    + rewrite !znth_cons_pos by lia. rewrite IH by lia. replace (Z.to_nat e) with (Datatypes.S (Z.to_nat (e - 1))) by lia. cbn [firstn]. rewrite positives_cons, E.
      destruct (znth cs (e - 1)) as [c'|]; [|reflexivity]. destruct (0 <? c'); [|reflexivity]. rewrite znth_cons_pos by (pose proof (zlen_nonneg (filter (fun c => 0 <? c) (firstn (Z.to_nat (e - 1)) cs))); unfold positives; lia). do 2 f_equal. lia.
  - destruct (Z.eq_dec e 0) as [->|]; [rewrite !znth_cons_0, E; reflexivity|].
    rewrite !znth_cons_pos by lia. rewrite IH by lia. replace (Z.to_nat e) with (Datatypes.S (Z.to_nat (e - 1))) by lia. cbn [firstn]. rewrite positives_cons, E. reflexivity.
Qed.
Lemma widths_eb {X} (z : X) : forall e cs l, positives cs = zlen l -> widths (firstn e (eb z cs l)) = sumZ (map (fun c => Z.max 1 (Z.abs c)) (firstn e cs)).
Proof.
  induction e as [|e IH]; intros cs l HL; [reflexivity|]. destruct cs as [|c cs]; [reflexivity|]. rewrite positives_cons in HL. pose proof (zlen_nonneg (filter (fun c => 0 <? c) cs)) as HP. fold (positives cs) in HP.
  cbn [eb]. destruct (0 <? c) eqn:E.
  - destruct l as [|x l]; [rewrite zlen_nil in HL; lia|]. rewrite zlen_cons in HL. specialize (IH cs l ltac:(lia)). unfold widths, sumZ in *. cbn [firstn map fold_right snd]. rewrite IH. lia.
  - specialize (IH cs l ltac:(lia)). unfold widths, sumZ in *. cbn [firstn map fold_right snd]. rewrite IH. lia.
Qed.
