(* P_Table5.v -- assignment to several columns. *)
From Coq Require Import String.
From Verif Require Import Base M_Array S_Array P_Array M_Structural P_Transpose M_Number S_Number P_Number P_Tower M_Scalar P_Scalar M_Dict S_Dict P_Dict M_Table S_Table P_Table P_Table2 P_Table3 P_Table4.
Open Scope Z_scope.

Section P.
  Context {P : Type} (M : methods P) (t : tower P) (hu : ntype -> bool) {K : Type} (keq : K -> K -> bool) (Hk : key_equality keq).
  Local Notation sv := (sval P).
  Local Notation table := (@table P K).
  Definition fitting (n : Z) (r : rep P) : Prop := isUniform r = true /\ rep_ok M r /\ vector r n.
  Lemma good_set (d : dict K (rep P)) n k r : good M keq (mkTable d n) -> In k (keysOf d) -> fitting n r ->
    good M keq (mkTable (DSet keq d k r) n) /\ keysOf (DSet keq d k r) = keysOf d.
  Proof.
    intros (Hp & H0 & Hg) Hin Hr. cbn [tdict Rows] in *. split; [|apply keys_DSet_in; assumption]. split; [apply proper_DSet; assumption|]. split; [exact H0|].
    intros k' r' E. cbn [tdict Rows] in *. rewrite (At_DSet keq Hk) in E. destruct (keq k k'); [injection E as <-; exact Hr|apply (Hg k' r' E)].
  Qed.
  Context (f : option (rep P -> rep P -> outcome (@tval P))) (o : dict K (@tval P) + table) (l : list Z).
  Definition step1 (k : K) (col : rep P) : outcome (rep P) := let* new := right_column M t hu keq o l k in set_column M t hu f l col new.
  Lemma assign_step ks (d : dict K (rep P)) n k : good M keq (mkTable d n) -> In k (keysOf d) ->
    exists col, At keq d k = Some col /\ fitting n col /\
      assign_columns M t hu keq f o l (k :: ks) d = match step1 k col with Ok r => assign_columns M t hu keq f o l ks (DSet keq d k r) | Err => (Err, d) | Panic => (Panic, d) end.
  Proof.
    intros G Hin. destruct (column_ok M keq (mkTable d n) k G Hin) as (col & E & Ea & Hf). cbn [tdict Rows] in *. exists col. split; [exact Ea|]. split; [exact Hf|].
    cbn [assign_columns]. rewrite E. cbn [obind]. unfold uniform. destruct Hf as (Hu & _). rewrite Hu. cbn [obind]. reflexivity.
  Qed.
  Lemma assign_inv ks : forall (d d' : dict K (rep P)) n, NoDup ks -> good M keq (mkTable d n) -> (forall k, In k ks -> In k (keysOf d)) ->
    (forall k col r, In k ks -> At keq d k = Some col -> fitting n col -> step1 k col = Ok r -> fitting n r) ->
    assign_columns M t hu keq f o l ks d = (Ok tt, d') ->
    good M keq (mkTable d' n) /\ keysOf d' = keysOf d /\ (forall k, ~ In k ks -> At keq d' k = At keq d k) /\
    forall k, In k ks -> exists col r, At keq d k = Some col /\ fitting n col /\ step1 k col = Ok r /\ At keq d' k = Some r.
  Proof.
    induction ks as [|k ks IH]; intros d d' n Hn G Hin Hs E.
    - cbn in E. injection E as <-. split; [exact G|]. split; [reflexivity|]. split; [reflexivity|]. intros k [].
    - inversion Hn as [|? ? Hk1 Hn']; subst. destruct (assign_step ks d n k G (Hin k (or_introl eq_refl))) as (col & Ea & Hf & Es). rewrite Es in E.
      destruct (step1 k col) as [r| |] eqn:Er; try discriminate. assert (Hfr : fitting n r) by (apply (Hs k col r (or_introl eq_refl) Ea Hf Er)).
      destruct (good_set d n k r G (Hin k (or_introl eq_refl)) Hfr) as (G' & Ek).
      destruct (IH (DSet keq d k r) d' n Hn' G') as (G2 & Ek2 & Hother & Hsame); [intros k' Hk'; rewrite Ek; apply Hin; right; exact Hk'| |exact E|].
      { intros k' col' r' Hk' Ea'. rewrite (At_DSet_other keq Hk) in Ea' by (intros ->; contradiction). apply Hs; [right; exact Hk'|exact Ea']. }
      split; [exact G2|]. split; [congruence|]. split.
      + intros k' Hk'. rewrite Hother by (intros Hc; apply Hk'; right; exact Hc). apply (At_DSet_other keq Hk). intros ->. apply Hk'. left. reflexivity.
      + intros k' [<-|Hk'].
        * exists col, r. split; [exact Ea|]. split; [exact Hf|]. split; [exact Er|]. rewrite Hother by exact Hk1. apply (At_DSet_same keq Hk).
        * destruct (Hsame k' Hk') as (col' & r' & Ea' & H1 & H2 & H3). exists col', r'. rewrite (At_DSet_other keq Hk) in Ea' by (intros ->; contradiction). split; [exact Ea'|]. split; [exact H1|]. split; assumption.
  Qed.
  Lemma assign_total ks : forall (d : dict K (rep P)) n, NoDup ks -> good M keq (mkTable d n) -> (forall k, In k ks -> In k (keysOf d)) ->
    (forall k col, In k ks -> At keq d k = Some col -> fitting n col -> exists r, step1 k col = Ok r /\ fitting n r) ->
    exists d', assign_columns M t hu keq f o l ks d = (Ok tt, d').
  Proof.
    induction ks as [|k ks IH]; intros d n Hn G Hin Hs; [exists d; reflexivity|].
    inversion Hn as [|? ? Hk1 Hn']; subst. destruct (assign_step ks d n k G (Hin k (or_introl eq_refl))) as (col & Ea & Hf & Es). rewrite Es.
    destruct (Hs k col (or_introl eq_refl) Ea Hf) as (r & Er & Hfr). rewrite Er. destruct (good_set d n k r G (Hin k (or_introl eq_refl)) Hfr) as (G' & Ek).
    apply (IH _ n Hn' G'); [intros k' Hk'; rewrite Ek; apply Hin; right; exact Hk'|]. intros k' col' Hk' Ea'. rewrite (At_DSet_other keq Hk) in Ea' by (intros ->; contradiction). apply Hs; [right; exact Hk'|exact Ea'].
  Qed.
End P.

Section R.
  Context {P : Type} (M : methods P) (t : tower P) (hu : ntype -> bool) {K : Type} (keq : K -> K -> bool) (Hk : key_equality keq).
  Local Notation sv := (sval P).
  Local Notation table := (@table P K).
  Lemma same_keys_ok (a b : list K) : same_keys keq a b = true <-> a = b.
  Proof.
    revert b. induction a as [|x a IH]; intros [|y b]; cbn; split; intros H; try reflexivity; try discriminate.
    - apply andb_true_iff in H. destruct H as (H1 & H2). apply Hk in H1. apply IH in H2. congruence.
    - injection H as -> ->. rewrite (keq_refl keq Hk). apply IH. reflexivity.
  Qed.
  Lemma right_ok (ks : list K) (l : list Z) R g : NoDup ks -> l <> [] -> right_values M keq (zlen l) ks R g -> (forall k x, In k ks -> In x (g k) -> plain M t hu x) ->
    exists o, (match R with
               | RArr r => Err
               | RScal v => Ok (inl (ofpairs keq (map (fun k => (k, TScal v)) ks)))
               | RDict d => Ok (inl d)
               | RTab U => Ok (inr U)
               end) = Ok o /\ same_keys keq (match o with inl d => keysOf d | inr U => keysOf (tdict U) end) ks = true /\
      forall k, In k ks -> exists c, right_column M t hu keq o l k = Ok c /\ elems (view c) = g k /\ fitting M (zlen l) c.
  Proof.
    intros Hn Hl HR Hp. assert (Hl0 : l <> []) by exact Hl.
    assert (Hs : forall v, plain M t hu v -> exists c, (let* u := Unify M t hu (mixed (repeat v (length l))) false in Ok (fst u)) = Ok c /\ elems (view c) = repeat v (Z.to_nat (zlen l)) /\ fitting M (zlen l) c).
    { intros v Hv. unfold mixed. replace (Z.to_nat (zlen l)) with (length l) by (unfold zlen; lia).
      assert (Hz : zlen (repeat v (length l)) = zlen l) by (unfold zlen; rewrite repeat_length; reflexivity).
      destruct (unify_one_type M t hu (repeat v (length l)) [zlen (repeat v (length l))] false) as (c & E & V & U & Rr).
      - intros a b Ha Hb. apply repeat_spec in Ha, Hb. congruence.
      - apply wf_vec.
      - destruct l; [congruence|discriminate].
      - intros a Ha. apply repeat_spec in Ha. subst a. exact Hv.
      - rewrite E. cbn [obind fst]. exists c. split; [reflexivity|]. rewrite V. split; [reflexivity|]. split; [exact U|]. split; [exact Rr|]. unfold vector. rewrite V. cbn [dims elems]. split; [f_equal; exact Hz|exact Hz]. }
    destruct HR as [v|d g Hd Hg|U g G Hu HR Hg].
    - eexists. split; [reflexivity|]. destruct (ofpairs_kmap keq Hk (fun _ => TScal v) ks Hn) as (Pp & Ek & Ha & _). unfold kmap in *. split; [apply same_keys_ok; exact Ek|].
      intros k Hi. cbn [right_column]. rewrite (Ha k Hi). apply Hs. apply (Hp k); [exact Hi|]. destruct l; [congruence|]. replace (Z.to_nat (zlen (z :: l))) with (S (length l)) by (unfold zlen; cbn [length]; lia). left. reflexivity.
    - eexists. split; [reflexivity|]. split; [apply same_keys_ok; exact Hd|]. intros k Hi. cbn [right_column]. rewrite (Hg k Hi). apply Hs. apply (Hp k); [exact Hi|]. destruct l; [congruence|]. replace (Z.to_nat (zlen (z :: l))) with (S (length l)) by (unfold zlen; cbn [length]; lia). left. reflexivity.
    - eexists. split; [reflexivity|]. split; [apply same_keys_ok; exact Hu|]. intros k Hi. cbn [right_column].
      destruct (column_ok M keq U k G) as (r & E & Ea & Iu & Ro & V); [rewrite Hu; exact Hi|]. rewrite E. cbn [obind]. unfold uniform. rewrite Iu. cbn [obind]. unfold shape. destruct V as (V1 & V2) eqn:Ev. rewrite V1, HR, Z.eqb_refl.
      destruct (subcolumn_ok M r (Rows U) (zseq (zlen l)) Iu Ro V) as (u & Eu & Iu' & Ru & Vu & _ & Hv).
      { apply Forall_forall. intros i Hi'. apply In_zseq in Hi'. lia. }
      exists u. split; [exact Eu|]. pose proof (zlen_nonneg l). rewrite zlen_zseq, Z.max_r in Vu by lia. split; [|split; [exact Iu'|split; assumption]].
      rewrite (Hg k r Ea). destruct Vu as (Vu1 & Vu2). apply znth_ext; [lia|]. intros i Hi'. apply Hv. apply znth_zseq. lia.
  Qed.
End R.
