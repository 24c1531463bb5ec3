(* P_Assign.v -- proofs about indexed assignment and functional indexes. *)
From Verif Require Import Base M_Array S_Array P_Array M_Structural Eff M_Index S_Index P_Index.
Open Scope Z_scope.

(* ---- funcArrayIndex ---- *)
Lemma zseq_cons n : 0 <= n -> zseq (n + 1) = 0 :: map (fun j => j + 1) (zseq n).
Proof.
  intros H. apply znth_ext; [rewrite zlen_cons, zlen_map, !zlen_zseq; lia|]. intros i Hi. rewrite zlen_zseq in Hi.
  rewrite znth_zseq by lia. destruct (Z.eq_dec i 0) as [->|]; [reflexivity|]. rewrite znth_cons_pos by lia. rewrite znth_map, znth_zseq by lia. cbn. f_equal. lia.
Qed.
Definition marked (i : Z) (ns : list Z) : list Z := map fst (filter (fun p => snd p =? 1) (combine (map (fun j => i + j) (zseq (zlen ns))) ns)).
Lemma marked_nil i : marked i [] = [].
Proof. reflexivity. Qed.
Lemma marked_cons i n ns : marked i (n :: ns) = if n =? 1 then i :: marked (i + 1) ns else marked (i + 1) ns.
Proof.
  unfold marked. replace (zlen (n :: ns)) with (zlen ns + 1) by (rewrite zlen_cons; lia). rewrite zseq_cons by apply zlen_nonneg.
  cbn [map combine filter snd].
  rewrite map_map. replace (map (fun x => i + (x + 1)) (zseq (zlen ns))) with (map (fun x => i + 1 + x) (zseq (zlen ns))) by (apply map_ext; intros; lia).
  destruct (n =? 1); [cbn [map fst]; f_equal; lia|reflexivity].
Qed.
Lemma fai_loop_spec {S A} (f : list Z -> A -> eff S fanswer) (f' : list Z -> A -> eff S Z) o ds :
  (forall idx x s, f idx x s = emap (fun n => FNum (Some n)) (f' idx x) s) ->
  forall l idx i s, inb ds idx \/ l = [] -> zlen l <= size ds - pos ds idx ->
  fai_loop f o ds idx i l s =
  (let! ns := mapE (fun p => f' (map (fun k => o + k) (fst p)) (snd p)) (combine (skipn (Z.to_nat (pos ds idx)) (all_idx ds)) l) in eret (marked i ns)) s.
Proof.
  intros Hf. induction l as [|x l IH]; intros idx i s Hin Hn.
  - destruct (skipn _ _); reflexivity.
  - destruct Hin as [Hin|]; [|discriminate].
    pose proof (pos_range ds idx Hin) as Hr. pose proof (znth_all_idx ds idx Hin) as Hz. unfold znth in Hz.
    replace (pos ds idx <? 0) with false in Hz by lia. rewrite (skipn_cons_nth _ _ _ Hz). cbn [combine mapE fai_loop].
    rewrite zlen_cons in Hn. pose proof (zlen_nonneg l) as Hl0. cbn [fst snd].
    unfold ebind at 1. rewrite Hf. unfold emap, ebind at 1, eret at 1. unfold ebind at 3. unfold ebind at 2.
    destruct (f' (map (fun k => o + k) idx) x s) as [[n| |] s']; try reflexivity.
    pose proof (inc_aux_spec ds idx Hin) as Hi. unfold IncArrayIndex. destruct (inc_aux idx ds) as [idx' c]. cbn [fst]. destruct Hi as [Hin' Hc].
    unfold ebind at 1.
    destruct l as [|y l].
    + rewrite IH by (try (right; reflexivity); try (change (zlen (@nil A)) with 0; pose proof (pos_range ds idx' Hin'); lia)).
      replace (combine (skipn (Z.to_nat (pos ds idx')) (all_idx ds)) (@nil A)) with (@nil (list Z * A)) by (destruct (skipn _ _); reflexivity).
      replace (combine (skipn (Datatypes.S (Z.to_nat (pos ds idx))) (all_idx ds)) (@nil A)) with (@nil (list Z * A)) by (destruct (skipn _ _); reflexivity).
      cbn [mapE]. unfold ebind, eret. rewrite !marked_nil, marked_cons, marked_nil. destruct (n =? 1); reflexivity.
    + destruct c; [rewrite zlen_cons in Hn; pose proof (zlen_nonneg l); lia|].
      rewrite IH; [|left; exact Hin'|lia].
      replace (Z.to_nat (pos ds idx')) with (Datatypes.S (Z.to_nat (pos ds idx))) by lia.
      unfold ebind, eret. destruct (mapE _ _ s') as [[ns| |] s'']; try reflexivity. rewrite marked_cons. reflexivity.
Qed.
Lemma funcArrayIndex_spec {S A} (f : list Z -> A -> eff S fanswer) (f' : list Z -> A -> eff S Z) o (a : arr A) s : wf a ->
  (forall idx x s, f idx x s = emap (fun n => FNum (Some n)) (f' idx x) s) ->
  funcArrayIndex f o a s =
  (let! ns := mapE (fun p => f' (map (fun k => o + k) (fst p)) (snd p)) (combine (all_idx (dims a)) (elems a)) in
   eret (mkArr [zlen (marked 0 ns)] (marked 0 ns))) s.
Proof.
  intros (W1 & W2 & W3) Hf. unfold funcArrayIndex. unfold ebind at 1.
  rewrite (fai_loop_spec f f' o (dims a) Hf); [rewrite pos_zeros; unfold ebind, eret; change (Z.to_nat 0) with 0%nat; cbn [skipn]; destruct (mapE _ _ s) as [[ns| |] s']; reflexivity| |rewrite pos_zeros; lia].
  destruct (elems a) as [|x l] eqn:E; [right; reflexivity|]. left. apply zeros_inb, size_pos_all; [exact W2|].
  rewrite zlen_cons in W3. pose proof (zlen_nonneg l). lia.
Qed.

(* ---- writing ---- *)
Definition same_box {A} (a b : arr A) : Prop := dims a = dims b /\ zlen (elems a) = zlen (elems b).
Lemma Set_ge_ok {A} (cv : A -> option A) (a : arr A) i v x : 0 <= i < zlen (elems a) -> cv v = Some x ->
  Set_ge cv a i v = Ok (mkArr (dims a) (zupd (elems a) i x)).
Proof. intros H E. unfold Set_ge. destruct (Z.ltb_spec i 0); [lia|]. destruct (Z.leb_spec (zlen (elems a)) i); [lia|]. cbn [orb]. rewrite E. reflexivity. Qed.
Lemma setk_range {A} (k : akind A) (a : arr A) i v : 0 <= i < zlen (elems a) ->
  setk k a i v = match conv k v with Some x => Ok (mkArr (dims a) (zupd (elems a) i x)) | None => Err end.
Proof.
  intros H. unfold setk. destruct (lax k).
  - unfold Set_gt. destruct (Z.ltb_spec i 0); [lia|]. destruct (Z.ltb_spec (zlen (elems a)) i); [lia|]. cbn [orb].
    destruct (conv k v); [|reflexivity]. destruct (Z.eqb_spec i (zlen (elems a))); [lia|reflexivity].
  - unfold Set_ge. destruct (Z.ltb_spec i 0); [lia|]. destruct (Z.leb_spec (zlen (elems a)) i); [lia|]. reflexivity.
Qed.
(* one write inside the array *)
Lemma try_set_ok {A} (k : akind A) i v st : 0 <= i < zlen (elems (cur st)) ->
  exists st' x, try_set k i v st = Ok st' /\ cur st' = mkArr (dims (cur st)) (zupd (elems (cur st)) i x) /\ (x = v \/ conv k v = Some x).
Proof.
  intros H. unfold try_set, set_cur, cur in *. destruct st as [o [u|]]; cbn [up orig] in *.
  - rewrite (Set_ge_ok Some u i v v H eq_refl). cbn [obind]. eexists _, v. split; [reflexivity|]. split; [reflexivity|left; reflexivity].
  - rewrite (setk_range k o i v H). destruct (conv k v) as [x|] eqn:E; cbn [obind].
    + eexists _, x. split; [reflexivity|]. split; [reflexivity|right; reflexivity].
    + unfold set_up, cur. cbn [up orig]. rewrite (Set_ge_ok Some o i v v H eq_refl). cbn [obind]. eexists _, v. split; [reflexivity|]. split; [reflexivity|left; reflexivity].
Qed.
(* what one attempt to write does to the object of the variable *)
Lemma setk_ok_inv {A} (k : akind A) (a : arr A) i v o : setk k a i v = Ok o -> exists x, o = mkArr (dims a) (zupd (elems a) i x) /\ 0 <= i < zlen (elems a).
Proof.
  unfold setk, Set_gt, Set_ge. destruct (lax k).
  - destruct (Z.ltb_spec i 0); [discriminate|]. destruct (Z.ltb_spec (zlen (elems a)) i); [discriminate|]. cbn [orb]. destruct (conv k v) as [x|]; [|discriminate].
    destruct (Z.eqb_spec i (zlen (elems a))); [discriminate|]. intros E. injection E as <-. exists x. split; [reflexivity|lia].
  - destruct (Z.ltb_spec i 0); [discriminate|]. destruct (Z.leb_spec (zlen (elems a)) i); [discriminate|]. cbn [orb]. destruct (conv k v) as [x|]; [|discriminate].
    intros E. injection E as <-. exists x. split; [reflexivity|lia].
Qed.
Lemma Set_ge_inv {A} (a : arr A) i v o : Set_ge Some a i v = Ok o -> o = mkArr (dims a) (zupd (elems a) i v) /\ 0 <= i < zlen (elems a).
Proof.
  unfold Set_ge. destruct (Z.ltb_spec i 0); [discriminate|]. destruct (Z.leb_spec (zlen (elems a)) i); [discriminate|]. cbn [orb].
  intros E. injection E as <-. split; [reflexivity|lia].
Qed.
Lemma try_set_inv {A} (k : akind A) i v st st' : try_set k i v st = Ok st' ->
  0 <= i < zlen (elems (cur st)) /\ (exists x, cur st' = mkArr (dims (cur st)) (zupd (elems (cur st)) i x)) /\
  (orig st' = orig st \/ exists x, orig st' = mkArr (dims (orig st)) (zupd (elems (orig st)) i x)).
Proof.
  unfold try_set, set_cur, set_up, cur. destruct st as [o [u|]]; cbn [up orig].
  - destruct (Set_ge Some u i v) as [u'| |] eqn:E; cbn [obind].
    + intros H. injection H as <-. apply Set_ge_inv in E. destruct E as (-> & E). cbn [up orig]. split; [exact E|]. split; [eexists; reflexivity|left; reflexivity].
    + discriminate.
    + discriminate.
  - destruct (setk k o i v) as [o'| |] eqn:E; cbn [obind].
    + intros H. injection H as <-. apply setk_ok_inv in E. destruct E as (x & -> & E). cbn [up orig]. split; [exact E|]. split; [eexists; reflexivity|right; eexists; reflexivity].
    + destruct (Set_ge Some o i v) as [u'| |] eqn:E'; cbn [obind]; try discriminate.
      intros H. injection H as <-. apply Set_ge_inv in E'. destruct E' as (-> & E'). cbn [up orig]. split; [exact E'|]. split; [eexists; reflexivity|left; reflexivity].
    + discriminate.
Qed.

Section ASSIGN.
  Context {S A : Type} (k : akind A).

  Lemma writes_cons (p i : Z) (v : A) ws : writes_to p ((i, v) :: ws) = if i =? p then v :: writes_to p ws else writes_to p ws.
  Proof. unfold writes_to. cbn [filter fst]. destruct (i =? p); reflexivity. Qed.
  Lemma rev_last_cons (v : A) l : exists w, (match rev (v :: l) with [] => None | w :: _ => Some w end) = Some w.
  Proof. cbn [rev]. destruct (rev l) as [|w t]; cbn; eauto. Qed.

  (* plain assignment *)
  Lemma assign_all_plain (E : A -> A -> Prop) : (forall v, E v v) -> (forall v x, conv k v = Some x -> E v x) ->
    forall (ws : list (Z * A)) st (s : S),
    Forall (fun w => fst w = -1 \/ 0 <= fst w < zlen (elems (cur st))) ws ->
    exists st', assign_all k None (map (fun w => (fst w, Ok (snd w))) ws) (st, s) = (Ok tt, (st', s)) /\ same_box (cur st') (cur st) /\
      forall p, 0 <= p -> match rev (writes_to p ws) with
                | [] => znth (elems (cur st')) p = znth (elems (cur st)) p
                | v :: _ => exists y, znth (elems (cur st')) p = Some y /\ E v y
                end.
  Proof.
    intros HE1 HE2. induction ws as [|(i, v) ws IH]; intros st s HF.
    - exists st. split; [reflexivity|]. split; [split; reflexivity|]. intros p _. reflexivity.
    - inversion HF as [|? ? Hi HF']; subst. cbn [fst snd] in Hi. cbn [map fst snd assign_all].
      unfold ebind at 1, elift at 1. cbv iota beta. unfold modAssign. destruct (Z.eqb_spec i (-1)) as [->|Hne].
      + unfold ebind at 1, eret at 1. cbv iota beta. destruct (IH st s HF') as (st' & E' & B & HP). exists st'. split; [exact E'|]. split; [exact B|].
        intros p Hp. rewrite writes_cons. destruct (Z.eqb_spec (-1) p); [lia|]. apply HP. exact Hp.
      + destruct Hi as [|Hi]; [lia|]. destruct (try_set_ok k i v st Hi) as (st1 & x & E1 & C1 & X1).
        unfold ebind at 1, aput. cbn [fst snd]. rewrite E1.
        assert (L1 : zlen (elems (cur st1)) = zlen (elems (cur st))) by (rewrite C1; cbn [elems]; apply zlen_zupd).
        destruct (IH st1 s) as (st' & E' & (B1 & B2) & HP); [rewrite L1; exact HF'|]. exists st'. split; [exact E'|].
        split; [split; [rewrite B1, C1; reflexivity|congruence]|]. intros p Hp. rewrite writes_cons. specialize (HP p Hp). destruct (Z.eqb_spec i p) as [->|Hip].
        * cbn [rev]. destruct (rev (writes_to p ws)) as [|w t]; cbn [app]; [|exact HP]. rewrite HP, C1. cbn [elems]. rewrite znth_zupd_same by exact Hi.
          exists x. split; [reflexivity|]. destruct X1 as [->|X1]; [apply HE1|apply HE2; exact X1].
        * destruct (rev (writes_to p ws)) as [|w t]; [|exact HP]. rewrite HP, C1. cbn [elems]. apply znth_zupd_other. exact Hip.
  Qed.

  (* modified assignment *)
  Lemma assign_all_mod (g : A -> A -> eff S A) (h : A -> A -> A) : (forall v x, conv k v = Some x -> x = v) -> (forall x v s, g x v s = (Ok (h x v), s)) ->
    forall (ws : list (Z * A)) st (s : S),
    Forall (fun w => fst w = -1 \/ 0 <= fst w < zlen (elems (cur st))) ws ->
    exists st', assign_all k (Some g) (map (fun w => (fst w, Ok (snd w))) ws) (st, s) = (Ok tt, (st', s)) /\ same_box (cur st') (cur st) /\
      forall p x, 0 <= p -> znth (elems (cur st)) p = Some x -> znth (elems (cur st')) p = Some (fold_left h (writes_to p ws) x).
  Proof.
    intros Hcv Hg. induction ws as [|(i, v) ws IH]; intros st s HF.
    - exists st. split; [reflexivity|]. split; [split; reflexivity|]. intros p x _ Hx. exact Hx.
    - inversion HF as [|? ? Hi HF']; subst. cbn [fst snd] in Hi. cbn [map fst snd assign_all].
      unfold ebind at 1, elift at 1. cbv iota beta. unfold modAssign. destruct (Z.eqb_spec i (-1)) as [->|Hne].
      + unfold ebind at 1, eret at 1. cbv iota beta. destruct (IH st s HF') as (st' & E' & B & HP). exists st'. split; [exact E'|]. split; [exact B|].
        intros p x Hp Hx. rewrite writes_cons. destruct (Z.eqb_spec (-1) p); [lia|]. apply HP; assumption.
      + destruct Hi as [|Hi]; [lia|]. destruct (znth_in_range (elems (cur st)) i Hi) as (y & Hy).
        destruct (try_set_ok k i (h y v) st Hi) as (st1 & x1 & E1 & C1 & X1).
        assert (x1 = h y v) by (destruct X1 as [|X1]; [assumption|apply Hcv in X1; congruence]). subst x1.
        unfold ebind at 1 2. unfold acall. cbn [fst snd]. unfold ebind at 1, elift at 1. rewrite (AtB_ok _ _ _ Hy), Hg. unfold aput. cbn [fst snd]. rewrite E1.
        assert (L1 : zlen (elems (cur st1)) = zlen (elems (cur st))) by (rewrite C1; cbn [elems]; apply zlen_zupd).
        destruct (IH st1 s) as (st' & E' & (B1 & B2) & HP); [rewrite L1; exact HF'|]. exists st'. split; [exact E'|].
        split; [split; [rewrite B1, C1; reflexivity|congruence]|]. intros p x Hp Hx. rewrite writes_cons. destruct (Z.eqb_spec i p) as [->|Hip].
        * cbn [fold_left]. apply HP; [exact Hp|]. rewrite C1. cbn [elems]. rewrite znth_zupd_same by exact Hi. congruence.
        * apply HP; [exact Hp|]. rewrite C1. cbn [elems]. rewrite znth_zupd_other by exact Hip. exact Hx.
  Qed.

  (* whatever happens: what is not addressed stays *)
  Definition framed (is_ : list Z) (st : asg A) (r : outcome unit * astate S A) : Prop :=
    same_box (orig (fst (snd r))) (orig st) /\ same_box (cur (fst (snd r))) (cur st) /\
    (forall p, ~ In p is_ -> znth (elems (orig (fst (snd r)))) p = znth (elems (orig st)) p /\ znth (elems (cur (fst (snd r)))) p = znth (elems (cur st)) p) /\
    (fst r = Ok tt -> forall i, In i is_ -> i = -1 \/ 0 <= i < zlen (elems (cur st))).
  Lemma framed_stop is_ st (s : S) o : o <> Ok tt -> framed is_ st (o, (st, s)).
  Proof. intros H. split; [split; reflexivity|]. split; [split; reflexivity|]. split; [intros; split; reflexivity|]. intros E. exfalso. exact (H E). Qed.
  Lemma framed_step i is_ st st0 r : (i = -1 /\ st0 = st \/ exists w, try_set k i w st = Ok st0) -> framed is_ st0 r -> framed (i :: is_) st r.
  Proof.
    intros Hs ((I1 & I1') & (I2 & I2') & I3 & I4). destruct Hs as [(Hi & ->)|(w & Hw)].
    - split; [split; assumption|]. split; [split; assumption|]. split; [intros p Hp; apply I3; intros Hin; apply Hp; right; exact Hin|]. intros Hr j [<-|Hj]; [left; exact Hi|apply I4; assumption].
    - apply try_set_inv in Hw. destruct Hw as (R & (x & C) & O).
      assert (LC : zlen (elems (cur st0)) = zlen (elems (cur st))) by (rewrite C; cbn [elems]; apply zlen_zupd).
      assert (LO : dims (orig st0) = dims (orig st) /\ zlen (elems (orig st0)) = zlen (elems (orig st))) by (destruct O as [->|(y & ->)]; [split; reflexivity|cbn [dims elems]; split; [reflexivity|apply zlen_zupd]]).
      split; [split; [rewrite I1; apply LO|rewrite I1'; apply LO]|]. split; [split; [rewrite I2, C; reflexivity|congruence]|]. split.
      + intros p Hp. assert (Hip : i <> p) by (intros ->; apply Hp; left; reflexivity). destruct (I3 p (fun Hin => Hp (or_intror Hin))) as (J1 & J2). rewrite J1, J2, C. cbn [elems]. rewrite znth_zupd_other by exact Hip. split; [|reflexivity].
        destruct O as [->|(y & ->)]; [reflexivity|]. cbn [elems]. apply znth_zupd_other. exact Hip.
      + intros Hr j [<-|Hj]; [right; exact R|]. specialize (I4 Hr j Hj). rewrite LC in I4. exact I4.
  Qed.
  Lemma assign_all_frame (f : option (A -> A -> eff S A)) : forall (ws : list (Z * outcome A)) st (s : S),
    framed (map fst ws) st (assign_all k f ws (st, s)).
  Proof.
    induction ws as [|(i, o) ws IH]; intros st s; cbn [assign_all map fst].
    - split; [split; reflexivity|]. split; [split; reflexivity|]. split; [intros; split; reflexivity|]. intros _ i [].
    - unfold ebind at 1, elift at 1. destruct o as [v| |]; [|apply framed_stop; discriminate..].
      unfold ebind at 1. unfold modAssign. destruct (Z.eqb_spec i (-1)) as [Hi|Hi].
      + unfold eret. apply (framed_step i _ st st); [left; split; [exact Hi|reflexivity]|apply IH].
      + destruct f as [g|].
        * unfold ebind at 1. unfold acall. cbn [fst snd].
          destruct ((let! x := elift (AtB (cur st) i) in g x v) s) as [[w| |] s']; [|apply framed_stop; discriminate..].
          unfold aput. cbn [fst snd]. destruct (try_set k i w st) as [st0| |] eqn:E; [|apply framed_stop; discriminate..].
          apply (framed_step i _ st st0); [right; exists w; exact E|apply IH].
        * unfold aput. cbn [fst snd]. destruct (try_set k i v st) as [st0| |] eqn:E; [|apply framed_stop; discriminate..].
          apply (framed_step i _ st st0); [right; exists v; exact E|apply IH].
  Qed.
End ASSIGN.
