(* Prop_Table2.v -- assignment to the cells of a table (C104), assignments that fail (C105). *)
From Coq Require Import String.
From Verif Require Import Base M_Array S_Array P_Array M_Structural P_Transpose M_Number S_Number P_Number P_Tower M_Scalar P_Scalar M_Dict S_Dict P_Dict S_Operators M_Table S_Table P_Table P_Table2 P_Table3 P_Table4 P_Table5 Prop_Table.
Open Scope Z_scope.

Section C104.
  Context {P : Type} (M : methods P) (t : tower P) (hu : ntype -> bool) {K : Type} (keq : K -> K -> bool) (Hk : key_equality keq) (skey : string -> K) (origin : Z).
  Local Notation sv := (sval P).
  Local Notation table := (@table P K).
  Local Notation assign := (table_assign M t hu keq skey origin).
  Local Notation means := (index_means skey origin).

  Lemma assign_eq (T : table) f R rs cs l ks g : good M keq T -> means T rs cs l ks -> l <> [] -> NoDup ks -> (forall k, In k ks -> In k (keysOf (tdict T))) ->
    right_values M keq (zlen l) ks R g -> (forall k x, In k ks -> In x (g k) -> plain M t hu x) ->
    Forall (fun i => 0 <= i < Rows T) l /\
    exists o, assign f R rs cs T = (let '(r, d) := assign_columns M t hu keq f o l ks (tdict T) in (r, mkTable d (Rows T))) /\
      forall k, In k ks -> exists c, right_column M t hu keq o l k = Ok c /\ elems (view c) = g k /\ fitting M (zlen l) c.
  Proof.
    intros G Hm Hl Hn Hin HR Hp. destruct (selection_ok M keq Hk skey origin T rs cs l ks G Hm Hin) as (Hr & ci & Es & F). split; [exact Hr|].
    destruct (right_ok M t hu keq Hk ks l R g Hn Hl HR Hp) as (o & Eo & Esk & Hc). exists o. split; [|exact Hc].
    unfold table_assign. rewrite Es. unfold assignTable.
    assert (Ek : mapM (zat (keysOf (tdict T))) ci = Ok ks). { clear -F. induction F as [|i k ci ks Hik F IH]; [reflexivity|]. cbn [mapM]. rewrite (proj2 (zat_ok _ _ _) Hik). cbn [obind]. rewrite IH. reflexivity. }
    rewrite Ek. cbn [obind]. destruct R as [r|v|d|U]; [inversion HR| | |]; injection Eo as <-; cbn [obind]; rewrite Esk; reflexivity.
  Qed.
  Lemma rows_pos (T : table) l : Forall (fun i => 0 <= i < Rows T) l -> l <> [] -> 0 < Rows T.
  Proof. intros F H. destruct l; [congruence|]. inversion F; subst. lia. Qed.
  Lemma column_plain (T : table) k r : plain_cells M t hu keq T -> At keq (tdict T) k = Some r -> forall x, In x (elems (view r)) -> plain M t hu x.
  Proof. intros H E x Hx. apply In_znth in Hx. destruct Hx as (i & Hi). apply (H i k). unfold cell. rewrite E. exact Hi. Qed.

  (* T[rows;cols]←R that succeeds: the table keeps its keys and its rows, the other columns
     are unchanged, and every column of the index has the values of R in the selected rows
     and the old values in the others (numbers are raised to the type of one of them, if
     their types differ) *)
  Theorem C104_assigned (T T' : table) R rs cs l ks g : tower_ok M t -> imports_bottom M t -> good M keq T -> plain_cells M t hu keq T ->
    means T rs cs l ks -> l <> [] -> NoDup ks -> (forall k, In k ks -> In k (keysOf (tdict T))) ->
    right_values M keq (zlen l) ks R g -> (forall k x, In k ks -> In x (g k) -> plain M t hu x) ->
    assign None R rs cs T = (Ok tt, T') ->
    good M keq T' /\ keysOf (tdict T') = keysOf (tdict T) /\ Rows T' = Rows T /\
    (forall k, ~ In k ks -> At keq (tdict T') k = At keq (tdict T) k) /\
    (forall k, In k ks -> exists r r' upd, At keq (tdict T) k = Some r /\ At keq (tdict T') k = Some r' /\
       written (elems (view r)) l (g k) upd /\ unified M t upd (elems (view r'))).
  Proof.
    intros Ht Hi G Hpl Hm Hl Hn Hin HR Hp E. destruct (assign_eq T None R rs cs l ks g G Hm Hl Hn Hin HR Hp) as (Hr & o & Eo & Hc). rewrite Eo in E.
    destruct (assign_columns M t hu keq None o l ks (tdict T)) as (res, d') eqn:Ed. injection E as -> <-. pose proof (rows_pos T l Hr Hl) as H0.
    assert (HS : forall k col r, In k ks -> At keq (tdict T) k = Some col -> fitting M (Rows T) col -> step1 M t hu keq None o l k col = Ok r ->
      fitting M (Rows T) r /\ exists upd, written (elems (view col)) l (g k) upd /\ unified M t upd (elems (view r))).
    { intros k col r Hki Ea (F1 & F2 & F3) Er. destruct (Hc k Hki) as (c & Ec & Hg & C1 & C2 & C3 & C4). unfold step1 in Er. rewrite Ec in Er. cbn [obind] in Er.
      destruct (set_column_unify M t hu col c (Rows T) l r Ht Hi F1 F2 F3 H0 Hr C4 C2) as (A1 & A2 & A3 & upd & A4 & A5); [|exact Er|].
      - intros x [Hx|Hx]; [apply (column_plain T k col Hpl Ea x Hx)|apply (Hp k x Hki); rewrite <- Hg; exact Hx].
      - split; [split; [exact A1|split; assumption]|]. exists upd. rewrite <- Hg. split; assumption. }
    destruct T as [d n]. cbn [tdict Rows] in *.
    destruct (assign_inv M t hu keq Hk None o l ks d d' n Hn G Hin) as (G' & Ek & Hother & Hsame); [|exact Ed|].
    { intros k col r Hki Ea Hf Er. apply (HS k col r Hki Ea Hf Er). }
    split; [exact G'|]. split; [exact Ek|]. split; [reflexivity|]. split; [exact Hother|].
    intros k Hki. destruct (Hsame k Hki) as (col & r & Ea & Hf & Er & Ea'). destruct (HS k col r Hki Ea Hf Er) as (_ & upd & H1 & H2).
    exists col, r, upd. split; [exact Ea|]. split; [exact Ea'|]. split; assumption.
  Qed.

  (* values of the type of the column: the assignment succeeds, and the cells have exactly
     these values *)
  Theorem C104_same_types (T : table) R rs cs l ks g : good M keq T -> means T rs cs l ks -> l <> [] -> NoDup ks -> (forall k, In k ks -> In k (keysOf (tdict T))) ->
    right_values M keq (zlen l) ks R g -> (forall k x, In k ks -> In x (g k) -> plain M t hu x) ->
    (forall i k v x, In k ks -> cell keq T i k = Some v -> In x (g k) -> stypeOf M x = stypeOf M v) ->
    exists T', assign None R rs cs T = (Ok tt, T') /\ good M keq T' /\ keysOf (tdict T') = keysOf (tdict T) /\ Rows T' = Rows T /\
    (forall k, ~ In k ks -> At keq (tdict T') k = At keq (tdict T) k) /\
    (forall k, In k ks -> exists r r', At keq (tdict T) k = Some r /\ At keq (tdict T') k = Some r' /\ written (elems (view r)) l (g k) (elems (view r'))).
  Proof.
    intros G Hm Hl Hn Hin HR Hp Hty. destruct (assign_eq T None R rs cs l ks g G Hm Hl Hn Hin HR Hp) as (Hr & o & Eo & Hc). pose proof (rows_pos T l Hr Hl) as H0.
    assert (HS : forall k col, In k ks -> At keq (tdict T) k = Some col -> fitting M (Rows T) col ->
      exists r, step1 M t hu keq None o l k col = Ok r /\ fitting M (Rows T) r /\ written (elems (view col)) l (g k) (elems (view r))).
    { intros k col Hki Ea (F1 & F2 & F3). destruct (Hc k Hki) as (c & Ec & Hg & C1 & C2 & C3 & C4). unfold step1. rewrite Ec. cbn [obind].
      destruct (set_column_ok M t hu col c (Rows T) l F1 F2 F3 H0 Hr C4 C2) as (upd & A1 & _ & A2 & _). destruct A2 as (r & Er & U & Rr & V & He).
      - apply ctype_same_rep; try assumption. destruct (g k) as [|x gk] eqn:Egk; [exfalso; destruct l; [congruence|]; rewrite Hg in C4; unfold zlen in C4; cbn in C4; lia|].
        destruct (znth (elems (view col)) 0) as [v|] eqn:Ev; [|apply znth_none in Ev; destruct F3; lia].
        rewrite (ctype_In M c x C2 C1) by (rewrite Hg; left; reflexivity). rewrite (ctype_In M col v F2 F1) by (eapply znth_In; exact Ev). f_equal.
        apply (Hty 0 k v x Hki); [unfold cell; rewrite Ea; exact Ev|rewrite Egk; left; reflexivity].
      - exists r. split; [exact Er|]. split; [split; [exact U|split; assumption]|]. rewrite He, <- Hg. exact A1. }
    destruct T as [d n]. cbn [tdict Rows] in *.
    destruct (assign_total M t hu keq Hk None o l ks d n Hn G Hin) as (d' & Ed); [intros k col Hki Ea Hf; destruct (HS k col Hki Ea Hf) as (r & H1 & H2 & _); exists r; split; assumption|].
    destruct (assign_inv M t hu keq Hk None o l ks d d' n Hn G Hin) as (G' & Ek & Hother & Hsame); [|exact Ed|].
    { intros k col r Hki Ea Hf Er. destruct (HS k col Hki Ea Hf) as (r' & E1 & E2 & _). congruence. }
    exists (mkTable d' n). rewrite Eo, Ed. cbn [tdict Rows]. split; [reflexivity|]. split; [exact G'|]. split; [exact Ek|]. split; [reflexivity|]. split; [exact Hother|].
    intros k Hki. destruct (Hsame k Hki) as (col & r & Ea & Hf & Er & Ea'). destruct (HS k col Hki Ea Hf) as (r' & E1 & _ & W). assert (r' = r) by congruence. subst r'.
    exists col, r. split; [exact Ea|]. split; assumption.
  Qed.

  Lemma unified_plain vs ws : unified M t vs ws -> (forall x, In x vs -> plain M t hu x) -> forall x, In x ws -> plain M t hu x.
  Proof.
    intros [->|(m & Hm & F)] H; [exact H|]. intros w Hw. apply In_znth in Hw. destruct Hw as (i & Hi). apply F2_znth in F. destruct F as (Hz & F).
    pose proof (znth_some_range _ _ _ Hi). destruct (znth vs i) as [v|] eqn:Ev; [|apply znth_none in Ev; lia].
    destruct (F _ _ _ Ev Hi) as (n & n' & m' & -> & -> & _ & Ht). specialize (H _ Hm). unfold plain in *. rewrite (sclass_type M t (VNum n') (VNum m)), Ht; [exact H|]. cbn. rewrite Ht. reflexivity.
  Qed.
  (* T[rows;cols]f←R: the new values of the selected rows are those of f, applied to the
     selected part of the column and to the values of R *)
  Theorem C104_modified (T T' : table) f R rs cs l ks g : tower_ok M t -> imports_bottom M t -> good M keq T -> plain_cells M t hu keq T ->
    means T rs cs l ks -> l <> [] -> NoDup ks -> (forall k, In k ks -> In k (keysOf (tdict T))) ->
    right_values M keq (zlen l) ks R g -> (forall k x, In k ks -> In x (g k) -> plain M t hu x) ->
    (forall a b v, f a b = Ok (TArr v) -> rep_ok M v /\ (dims (view v) = [zlen (elems (view v))] \/ zlen (dims (view v)) <> 1) /\ forall x, In x (elems (view v)) -> plain M t hu x) ->
    assign (Some f) R rs cs T = (Ok tt, T') ->
    good M keq T' /\ keysOf (tdict T') = keysOf (tdict T) /\ Rows T' = Rows T /\
    (forall k, ~ In k ks -> At keq (tdict T') k = At keq (tdict T) k) /\
    (forall k, In k ks -> exists r r' old new v us upd, At keq (tdict T) k = Some r /\ At keq (tdict T') k = Some r' /\
       vector old (zlen l) /\ (forall i j, znth l i = Some j -> znth (elems (view old)) i = znth (elems (view r)) j) /\
       vector new (zlen l) /\ elems (view new) = g k /\
       f old new = Ok (TArr v) /\ vector v (zlen l) /\ unified M t (elems (view v)) us /\
       written (elems (view r)) l us upd /\ unified M t upd (elems (view r'))).
  Proof.
    intros Ht Hi G Hpl Hm Hl Hn Hin HR Hp Hf0 E. destruct (assign_eq T (Some f) R rs cs l ks g G Hm Hl Hn Hin HR Hp) as (Hr & o & Eo & Hc). rewrite Eo in E.
    destruct (assign_columns M t hu keq (Some f) o l ks (tdict T)) as (res, d') eqn:Ed. injection E as -> <-. pose proof (rows_pos T l Hr Hl) as H0.
    assert (HS : forall k col r, In k ks -> At keq (tdict T) k = Some col -> fitting M (Rows T) col -> step1 M t hu keq (Some f) o l k col = Ok r ->
      fitting M (Rows T) r /\ exists old new v us upd,
       vector old (zlen l) /\ (forall i j, znth l i = Some j -> znth (elems (view old)) i = znth (elems (view col)) j) /\
       vector new (zlen l) /\ elems (view new) = g k /\
       f old new = Ok (TArr v) /\ vector v (zlen l) /\ unified M t (elems (view v)) us /\
       written (elems (view col)) l us upd /\ unified M t upd (elems (view r))).
    { intros k col r Hki Ea (F1 & F2 & F3) Er. destruct (Hc k Hki) as (c & Ec & Hg & C1 & C2 & C3). unfold step1 in Er. rewrite Ec in Er. cbn [obind] in Er.
      destruct (subcolumn_ok M col (Rows T) l F1 F2 F3 Hr) as (old & Eold & O1 & O2 & O3 & _ & O4).
      unfold set_column in Er. rewrite Eold in Er. cbn [obind] in Er. destruct (f old c) as [[s|v]| |] eqn:Ef; try discriminate. cbn [obind] in Er.
      destruct (Hf0 _ _ _ Ef) as (V1 & V2 & V3). unfold shape in Er. destruct (dims (view v)) as [|m [|? ?]] eqn:Edv; try discriminate.
      destruct (Z.eqb_spec m (zlen l)) as [->|]; [|discriminate]. destruct (Unify M t hu v true) as [(u, ok)| |] eqn:Eu; try discriminate. cbn [obind fst snd] in Er. destruct ok; [|discriminate].
      assert (Hv : vector v (zlen l)). { destruct V2 as [V2|V2]; [|exfalso; apply V2; reflexivity]. split; [exact Edv|]. congruence. }
      assert (Hne : elems (view v) <> []) by (intros Hv0; destruct Hv as (_ & Hv); rewrite Hv0 in Hv; destruct l; [congruence|]; unfold zlen in Hv; cbn in Hv; lia).
      apply unify_uptype_any in Eu; try assumption; [|intros ->; discriminate Edv]. destruct Eu as (D & U & Iu & Ru). unfold uniform in Er at 1. rewrite Iu in Er. cbn [obind] in Er.
      assert (Hzu : zlen (elems (view u)) = zlen l). { destruct Hv as (_ & Hv). destruct U as [U|(x & _ & U)]; [rewrite U; exact Hv|apply Forall2_zlen in U; lia]. }
      assert (Es : set_column M t hu None l col u = Ok r) by exact Er.
      destruct (set_column_unify M t hu col u (Rows T) l r Ht Hi F1 F2 F3 H0 Hr Hzu Ru) as (A1 & A2 & A3 & upd & A4 & A5); [|exact Es|].
      - intros x [Hx|Hx]; [apply (column_plain T k col Hpl Ea x Hx)|apply (unified_plain _ _ U V3 x Hx)].
      - split; [split; [exact A1|split; assumption]|]. exists old, c, v, (elems (view u)), upd. split; [exact O3|]. split; [exact O4|]. split; [exact C3|]. split; [exact Hg|]. split; [exact Ef|]. split; [exact Hv|]. split; [exact U|]. split; assumption. }
    destruct T as [d n]. cbn [tdict Rows] in *.
    destruct (assign_inv M t hu keq Hk (Some f) o l ks d d' n Hn G Hin) as (G' & Ek & Hother & Hsame); [|exact Ed|].
    { intros k col r Hki Ea Hf Er. apply (HS k col r Hki Ea Hf Er). }
    split; [exact G'|]. split; [exact Ek|]. split; [reflexivity|]. split; [exact Hother|].
    intros k Hki. destruct (Hsame k Hki) as (col & r & Ea & Hf & Er & Ea'). destruct (HS k col r Hki Ea Hf Er) as (_ & old & new & v & us & upd & H).
    exists col, r, old, new, v, us, upd. split; [exact Ea|]. split; [exact Ea'|]. exact H.
  Qed.

  (* an array on the right: one row for every selected row, one column for every key; its
     values must have the types of the columns *)
  Lemma mapM_split {A B} (h : A -> outcome B) xs : (forall x, In x xs -> exists y, h x = Ok y) -> exists ys, mapM h xs = Ok ys /\ Forall2 (fun x y => h x = Ok y) xs ys.
  Proof.
    induction xs as [|x xs IH]; intros H; [exists []; split; [reflexivity|constructor]|]. destruct (H x (or_introl eq_refl)) as (y & Ey). destruct IH as (ys & E & F); [intros z Hz; apply H; right; exact Hz|].
    exists (y :: ys). cbn [mapM]. rewrite Ey. cbn [obind]. rewrite E. split; [reflexivity|constructor; assumption].
  Qed.
  Lemma array_ok (T : table) a l ks : good M keq T -> Forall (fun i => 0 <= i < Rows T) l -> l <> [] -> NoDup ks -> (forall k, In k ks -> In k (keysOf (tdict T))) ->
    wf (view a) -> dims (view a) = [zlen l; zlen ks] \/ dims (view a) = [zlen l] /\ zlen ks = 1 ->
    let cellA i j := znth (elems (view a)) (i * zlen ks + j) in
    (forall i i' j k v x, znth ks j = Some k -> cell keq T i' k = Some v -> 0 <= i < zlen l -> cellA i j = Some x -> stypeOf M x = stypeOf M v) ->
    exists U, array_columns M keq (tdict T) ks l a = Ok U /\ good M keq U /\ keysOf (tdict U) = ks /\ Rows U = zlen l /\
      forall j k, znth ks j = Some k -> exists u, At keq (tdict U) k = Some u /\ zlen (elems (view u)) = zlen l /\ forall i, 0 <= i < zlen l -> znth (elems (view u)) i = cellA i j.
  Proof.
    intros G Hr Hl Hn Hin Hwf Hd cellA Hty. pose proof (rows_pos T l Hr Hl) as H0. pose proof (zlen_nonneg l) as Hl0. pose proof (zlen_nonneg ks) as Hk0.
    assert (Hz : zlen (elems (view a)) = zlen l * zlen ks). { destruct Hwf as (_ & _ & Hwf). rewrite Hwf. destruct Hd as [->|(-> & ->)]; cbn [size]; lia. }
    unfold array_columns, shape, vals.
    assert (Esh : match dims (view a) with [n] => if zlen (elems (view a)) =? zlen l then [n; 1] else [n] | sh => sh end = [zlen l; zlen ks]).
    { destruct Hd as [E|(E & E1)]; rewrite E; [reflexivity|]. rewrite Hz, E1, Z.mul_1_r, Z.eqb_refl. reflexivity. }
    rewrite Esh, !Z.eqb_refl. cbn [andb].
    match goal with |- context [mapM ?f (combine _ ks)] => set (h := f) end.
    destruct (mapM_split h (combine (zseq (zlen ks)) ks)) as (kvs & E & F).
    { intros (j, k) Hjk. apply In_znth in Hjk. destruct Hjk as (q & Hq).
      assert (Hzc : zlen (zseq (zlen ks)) = zlen ks) by (rewrite zlen_zseq; lia). apply znth_combine_inv in Hq. destruct Hq as (Hq1 & Hq2). pose proof (znth_some_range _ _ _ Hq1) as Hqr. rewrite Hzc in Hqr. rewrite znth_zseq in Hq1 by lia. injection Hq1 as <-.
      unfold h. cbn [snd fst]. destruct (column_ok M keq T k G) as (c & Ec & Ea & U1 & R1 & V1); [apply Hin; eapply znth_In; exact Hq2|]. rewrite Ec. cbn [obind]. unfold uniform at 1. rewrite U1. cbn [obind].
      destruct (mapM_split (fun i => zat (elems (view a)) (i * zlen ks + q)) (zseq (zlen l))) as (vs & Evs & Fvs).
      { intros i Hi. apply In_zseq in Hi. destruct (znth (elems (view a)) (i * zlen ks + q)) as [x|] eqn:Ex; [exists x; apply zat_ok; exact Ex|]. apply znth_none in Ex. nia. }
      rewrite Evs. cbn [obind]. destruct (build_ok M c vs U1) as (r & Eb & Vb & Ub & Rb & _).
      { intros v Hv. apply In_znth in Hv. destruct Hv as (i & Hi). apply F2_znth in Fvs. destruct Fvs as (Hzv & Fvs). pose proof (znth_some_range _ _ _ Hi) as Hir. rewrite zlen_zseq in Hzv.
        specialize (Fvs i i v (znth_zseq (zlen l) i ltac:(lia)) Hi). apply zat_ok in Fvs.
        destruct (znth (elems (view c)) 0) as [v0|] eqn:Ev0; [|apply znth_none in Ev0; destruct V1; lia]. rewrite (ctype_In M c v0 R1 U1) by (eapply znth_In; exact Ev0). f_equal. symmetry.
        apply (Hty i 0 q k v0 v Hq2); [unfold cell; rewrite Ea; exact Ev0|lia|exact Fvs]. }
      rewrite Eb. cbn [obind]. eexists. reflexivity. }
    rewrite E. cbn [obind]. eexists. split; [reflexivity|]. apply F2_znth in F. destruct F as (Hzk & F).
    assert (Hzc : zlen (zseq (zlen ks)) = zlen ks) by (rewrite zlen_zseq; lia).
    assert (Hzkk : zlen kvs = zlen ks). { rewrite <- Hzk. unfold zlen in *. rewrite combine_length. lia. }
    assert (F' : forall j kv, znth kvs j = Some kv -> exists k, znth ks j = Some k /\ h (j, k) = Ok kv).
    { intros j kv Hkv. pose proof (znth_some_range _ _ _ Hkv) as Hjr. destruct (znth ks j) as [k|] eqn:Ekj; [|apply znth_none in Ekj; lia]. exists k. split; [reflexivity|]. apply (F j); [|exact Hkv]. apply znth_combine; [apply znth_zseq; lia|exact Ekj]. }
    assert (HF : forall j k u, znth ks j = Some k -> znth kvs j = Some (k, u) -> fitting M (zlen l) u /\ forall i, 0 <= i < zlen l -> znth (elems (view u)) i = cellA i j).
    { intros j k u Hj Hu. destruct (F' _ _ Hu) as (k' & Hk' & Eh). assert (k' = k) by congruence. subst k'. unfold h in Eh. cbn [snd fst] in Eh.
      destruct (column_ok M keq T k G) as (c & Ec & Ea & U1 & R1 & V1); [apply Hin; eapply znth_In; exact Hj|]. rewrite Ec in Eh. cbn [obind] in Eh. unfold uniform at 1 in Eh. rewrite U1 in Eh. cbn [obind] in Eh.
      destruct (mapM (fun i => zat (elems (view a)) (i * zlen ks + j)) (zseq (zlen l))) as [vs| |] eqn:Evs; try discriminate. cbn [obind] in Eh.
      apply mapM_Forall2 in Evs. apply F2_znth in Evs. destruct Evs as (Hzv & Fvs). rewrite zlen_zseq in Hzv.
      assert (Hcells : forall i, 0 <= i < zlen l -> znth vs i = cellA i j).
      { intros i Hi. destruct (znth vs i) as [v|] eqn:Ev; [|apply znth_none in Ev; lia]. specialize (Fvs i i v (znth_zseq (zlen l) i ltac:(lia)) Ev). apply zat_ok in Fvs. symmetry. exact Fvs. }
      destruct (build_ok M c vs U1) as (r & Eb & Vb & Ub & Rb & _).
      { intros v Hv. apply In_znth in Hv. destruct Hv as (i & Hi). pose proof (znth_some_range _ _ _ Hi) as Hir. rewrite Hcells in Hi by lia.
        destruct (znth (elems (view c)) 0) as [v0|] eqn:Ev0; [|apply znth_none in Ev0; destruct V1; lia]. rewrite (ctype_In M c v0 R1 U1) by (eapply znth_In; exact Ev0). f_equal. symmetry.
        apply (Hty i 0 j k v0 v Hj); [unfold cell; rewrite Ea; exact Ev0|lia|exact Hi]. }
      rewrite Eb in Eh. cbn [obind] in Eh. injection Eh as <-. unfold fitting, vector. rewrite Vb. cbn [dims elems]. split; [|exact Hcells]. split; [exact Ub|]. split; [exact Rb|]. split; [f_equal; lia|lia]. }
    assert (Hfst : map fst kvs = ks).
    { apply znth_ext; [unfold zlen in *; rewrite map_length; exact Hzkk|]. intros j Hj. rewrite znth_map. destruct (znth kvs j) as [(k, u)|] eqn:Ej; [|apply znth_none in Ej; unfold zlen in *; rewrite map_length in Hj; lia].
      cbn [option_map fst]. destruct (F' _ _ Ej) as (k' & Hk' & Eh). unfold h in Eh. cbn [snd fst] in Eh. rewrite Hk'. f_equal.
      destruct (column keq (tdict T) k') as [c0| |]; try discriminate. cbn [obind] in Eh. destruct (uniform c0) as [c1| |]; try discriminate. cbn [obind] in Eh. destruct (mapM _ (zseq (zlen l))) as [vs| |]; try discriminate. cbn [obind] in Eh. destruct (build M c1 vs) as [r| |]; try discriminate. cbn [obind] in Eh. congruence. }
    assert (Hnk : NoDup (map fst kvs)) by (rewrite Hfst; exact Hn).
    cbn [tdict Rows]. split; [|split; [exact Hfst|split; [reflexivity|]]].
    - split; [apply (ofpairs_proper keq Hk); exact Hnk|]. split; [exact Hl0|]. cbn [tdict Rows]. intros k u Hu. apply (ofpairs_At keq Hk kvs k u Hnk) in Hu. apply In_znth in Hu. destruct Hu as (j & Hj). destruct (F' _ _ Hj) as (k' & Hk' & _).
      assert (k' = k). { assert (znth (map fst kvs) j = Some k) by (rewrite znth_map, Hj; reflexivity). rewrite Hfst in H. congruence. } subst k'. apply (HF j k u Hk' Hj).
    - intros j k Hj. destruct (znth kvs j) as [(k', u)|] eqn:Ej; [|apply znth_none in Ej; pose proof (znth_some_range _ _ _ Hj); lia].
      assert (k' = k). { assert (znth (map fst kvs) j = Some k') by (rewrite znth_map, Ej; reflexivity). rewrite Hfst in H. congruence. } subst k'. destruct (HF j k u Hj Ej) as (Hf & Hc). exists u. split; [apply (ofpairs_At keq Hk kvs k u Hnk); eapply znth_In; exact Ej|]. split; [apply Hf|exact Hc].
  Qed.
  (* A is a matrix, or a vector for one column *)
  Theorem C104_array (T : table) a rs cs l ks : good M keq T -> plain_cells M t hu keq T -> means T rs cs l ks -> l <> [] -> NoDup ks -> (forall k, In k ks -> In k (keysOf (tdict T))) ->
    wf (view a) -> dims (view a) = [zlen l; zlen ks] \/ dims (view a) = [zlen l] /\ zlen ks = 1 ->
    let cellA i j := znth (elems (view a)) (i * zlen ks + j) in
    (forall i i' j k v x, znth ks j = Some k -> cell keq T i' k = Some v -> 0 <= i < zlen l -> cellA i j = Some x -> stypeOf M x = stypeOf M v) ->
    exists T', assign None (RArr a) rs cs T = (Ok tt, T') /\ good M keq T' /\ keysOf (tdict T') = keysOf (tdict T) /\ Rows T' = Rows T /\
    (forall k, ~ In k ks -> At keq (tdict T') k = At keq (tdict T) k) /\
    (forall j k, znth ks j = Some k -> exists r r' vs, At keq (tdict T) k = Some r /\ At keq (tdict T') k = Some r' /\
       zlen vs = zlen l /\ (forall i, 0 <= i < zlen l -> znth vs i = cellA i j) /\ written (elems (view r)) l vs (elems (view r'))).
  Proof.
    intros G Hpl Hm Hl Hn Hin Hwf Hd cellA Hty. destruct (selection_ok M keq Hk skey origin T rs cs l ks G Hm Hin) as (Hr & ci & Es & F).
    destruct (array_ok T a l ks G Hr Hl Hn Hin Hwf Hd Hty) as (U & EU & GU & EkU & ERU & HU).
    set (g := fun k => match At keq (tdict U) k with Some u => elems (view u) | None => [] end).
    assert (Hg : forall j k, znth ks j = Some k -> zlen (g k) = zlen l /\ forall i, 0 <= i < zlen l -> znth (g k) i = cellA i j).
    { intros j k Hj. destruct (HU j k Hj) as (u & Eu & Hz & Hc). unfold g. rewrite Eu. split; assumption. }
    assert (HgT : forall i k v x, In k ks -> cell keq T i k = Some v -> In x (g k) -> stypeOf M x = stypeOf M v).
    { intros i k v x Hki Hv Hx. apply In_znth in Hki. destruct Hki as (j & Hj). destruct (Hg j k Hj) as (Hz & Hc). apply In_znth in Hx. destruct Hx as (q & Hq). pose proof (znth_some_range _ _ _ Hq). rewrite Hc in Hq by lia. apply (Hty q i j k v x Hj Hv); [lia|exact Hq]. }
    destruct (C104_same_types T (RTab U) rs cs l ks g G Hm Hl Hn Hin) as (T' & E & G' & Ek & ER & Ho & Hs).
    - apply rv_table; try assumption. intros k r Er. unfold g. rewrite Er. reflexivity.
    - intros k x Hki Hx. destruct (column_ok M keq T k G (Hin k Hki)) as (c & _ & Ea & _ & _ & (_ & Hzc)). pose proof (rows_pos T l Hr Hl) as Hpos.
      destruct (znth (elems (view c)) 0) as [v|] eqn:Ev; [|apply znth_none in Ev; lia]. assert (Hcell : cell keq T 0 k = Some v) by (unfold cell; rewrite Ea; exact Ev).
      pose proof (HgT _ _ _ _ Hki Hcell Hx) as Hst. pose proof (Hpl _ _ _ Hcell) as Hpv. unfold plain in *. destruct x, v; cbn in Hst; try discriminate.
      + rewrite (sclass_type M t (VNum n) (VNum n0)); [injection Hst as ->; exact Hpv|exact Hst].
      + congruence.
    - exact HgT.
    - exists T'. split; [|split; [exact G'|split; [exact Ek|split; [exact ER|split; [exact Ho|]]]]].
      + rewrite <- E. unfold table_assign. rewrite Es. unfold assignTable.
        assert (Ekk : mapM (zat (keysOf (tdict T))) ci = Ok ks). { clear -F. induction F as [|i k ci ks Hik F IH]; [reflexivity|]. cbn [mapM]. rewrite (proj2 (zat_ok _ _ _) Hik). cbn [obind]. rewrite IH. reflexivity. }
        rewrite Ekk. cbn [obind]. rewrite EU. reflexivity.
      + intros j k Hj. destruct (Hs k (znth_In _ _ _ Hj)) as (r & r' & E1 & E2 & W). exists r, r', (g k). destruct (Hg j k Hj) as (Hz & Hc). split; [exact E1|]. split; [exact E2|]. split; [exact Hz|]. split; assumption.
  Qed.

  (* C105.  A right argument that does not fit is refused, and the table is unchanged: an array of
     another shape, a dictionary or table with other keys *)
  Inductive misfit (l : list Z) (ks : list K) : @trhs P K -> Prop :=
  | mf_shape a : dims (view a) <> [zlen l; zlen ks] -> (zlen (dims (view a)) <> 1 \/ zlen (elems (view a)) <> zlen l \/ zlen ks <> 1) -> wf (view a) -> misfit l ks (RArr a)
  | mf_dict d : keysOf d <> ks -> misfit l ks (RDict d)
  | mf_table U : keysOf (tdict U) <> ks -> misfit l ks (RTab U).
  Theorem C105_misfit_partial (T : table) f R rs cs l ks : good M keq T -> means T rs cs l ks -> (forall k, In k ks -> In k (keysOf (tdict T))) ->
    misfit l ks R -> assign f R rs cs T = (Err, T).
  Proof.
    intros G Hm Hin HR. destruct (selection_ok M keq Hk skey origin T rs cs l ks G Hm Hin) as (Hr & ci & Es & F).
    unfold table_assign. rewrite Es. unfold assignTable.
    assert (Ekk : mapM (zat (keysOf (tdict T))) ci = Ok ks). { clear -F. induction F as [|i k ci ks Hik F IH]; [reflexivity|]. cbn [mapM]. rewrite (proj2 (zat_ok _ _ _) Hik). cbn [obind]. rewrite IH. reflexivity. }
    rewrite Ekk. cbn [obind]. destruct HR as [a Hd Hn Hwf|d Hd|U Hd].
    - enough (E : array_columns M keq (tdict T) ks l a = Err) by (rewrite E; reflexivity). unfold array_columns, shape, vals.
      destruct (dims (view a)) as [|n [|m [|q sh]]] eqn:Ed; try reflexivity.
      + destruct (Z.eqb_spec (zlen (elems (view a))) (zlen l)) as [E|]; [|reflexivity].
        destruct (Z.eqb_spec n (zlen l)); [|reflexivity]. destruct (Z.eqb_spec 1 (zlen ks)); [|reflexivity]. exfalso. destruct Hn as [Hn|[Hn|Hn]]; [apply Hn; reflexivity|lia|lia].
      + destruct (Z.eqb_spec n (zlen l)); [|reflexivity]. destruct (Z.eqb_spec m (zlen ks)); [|reflexivity]. exfalso. apply Hd. congruence.
    - cbn [obind]. destruct (same_keys keq (keysOf d) ks) eqn:E; [apply (same_keys_ok keq Hk) in E; contradiction|reflexivity].
    - cbn [obind]. destruct (same_keys keq (keysOf (tdict U)) ks) eqn:E; [apply (same_keys_ok keq Hk) in E; contradiction|reflexivity].
  Qed.
  (* an index that selects nothing that exists *)
  Theorem C105_bad_index_partial (T : table) f R rs cs : tableSelection keq skey origin T rs cs = Err -> assign f R rs cs T = (Err, T).
  Proof. intros E. unfold table_assign. rewrite E. reflexivity. Qed.
  Lemma mapM_Err {A B} (h : A -> outcome B) xs x : (forall y, In y xs -> h y <> Panic) -> In x xs -> h x = Err -> mapM h xs = Err.
  Proof.
    induction xs as [|y xs IH]; intros Hp Hi Hx; [contradiction|]. cbn [mapM]. destruct (h y) as [b| |] eqn:Ey; cbn [obind]; [|reflexivity|exfalso; apply (Hp y (or_introl eq_refl) Ey)].
    destruct Hi as [->|Hi]; [congruence|]. rewrite IH; [reflexivity|intros z Hz; apply Hp; right; exact Hz|exact Hi|exact Hx].
  Qed.
  (* an array with a value that has not the type of its column *)
  Theorem C105_array_types_partial (T : table) f a rs cs l ks i j k x v : good M keq T -> means T rs cs l ks -> (forall k, In k ks -> In k (keysOf (tdict T))) ->
    wf (view a) -> dims (view a) = [zlen l; zlen ks] ->
    0 <= i < zlen l -> znth ks j = Some k -> elem (view a) [i; j] = Some x -> cell keq T 0 k = Some v -> stypeOf M x <> stypeOf M v ->
    assign f (RArr a) rs cs T = (Err, T).
  Proof.
    intros G Hm Hin Hwf Hd Hi Hj Hx Hv Hne. destruct (selection_ok M keq Hk skey origin T rs cs l ks G Hm Hin) as (Hr & ci & Es & F).
    unfold table_assign. rewrite Es. unfold assignTable.
    assert (Ekk : mapM (zat (keysOf (tdict T))) ci = Ok ks). { clear -F. induction F as [|i k ci ks Hik F IH]; [reflexivity|]. cbn [mapM]. rewrite (proj2 (zat_ok _ _ _) Hik). cbn [obind]. rewrite IH. reflexivity. }
    rewrite Ekk. cbn [obind]. enough (E : array_columns M keq (tdict T) ks l a = Err) by (rewrite E; reflexivity). unfold array_columns, shape, vals. rewrite Hd, !Z.eqb_refl. cbn [andb].
    assert (Hz : zlen (elems (view a)) = zlen l * zlen ks) by (destruct Hwf as (_ & _ & Hwf); rewrite Hwf, Hd; cbn [size]; lia).
    pose proof (zlen_nonneg ks) as Hk0. pose proof (zlen_nonneg l) as Hl0. pose proof (znth_some_range _ _ _ Hj) as Hjr.
    assert (Hcol : forall q k', znth ks q = Some k' -> exists c vs, column keq (tdict T) k' = Ok c /\ At keq (tdict T) k' = Some c /\ uniform c = Ok c /\ isUniform c = true /\ rep_ok M c /\
       mapM (fun i => zat (elems (view a)) (i * zlen ks + q)) (zseq (zlen l)) = Ok vs /\ forall i, 0 <= i < zlen l -> znth vs i = znth (elems (view a)) (i * zlen ks + q)).
    { intros q k' Hq. pose proof (znth_some_range _ _ _ Hq) as Hqr. destruct (column_ok M keq T k' G) as (c & Ec & Ea & U1 & R1 & V1); [apply Hin; eapply znth_In; exact Hq|].
      destruct (mapM_split (fun i => zat (elems (view a)) (i * zlen ks + q)) (zseq (zlen l))) as (vs & Evs & Fvs).
      { intros i' Hi'. apply In_zseq in Hi'. destruct (znth (elems (view a)) (i' * zlen ks + q)) as [x'|] eqn:Ex; [exists x'; apply zat_ok; exact Ex|]. apply znth_none in Ex. nia. }
      exists c, vs. split; [exact Ec|]. split; [exact Ea|]. unfold uniform. rewrite U1. split; [reflexivity|]. split; [reflexivity|]. split; [exact R1|]. split; [exact Evs|].
      intros i' Hi'. apply F2_znth in Fvs. destruct Fvs as (Hzv & Fvs). rewrite zlen_zseq in Hzv. destruct (znth vs i') as [w|] eqn:Ew; [|apply znth_none in Ew; lia].
      specialize (Fvs i' i' w (znth_zseq (zlen l) i' Hi') Ew). apply zat_ok in Fvs. symmetry. exact Fvs. }
    match goal with |- context [mapM ?h (combine _ ks)] => enough (E : mapM h (combine (zseq (zlen ks)) ks) = Err) by (rewrite E; reflexivity) end.
    apply mapM_Err with (x := (j, k)).
    - intros (q, k') Hqk. apply In_znth in Hqk. destruct Hqk as (p & Hp). apply znth_combine_inv in Hp. destruct Hp as (Hp1 & Hp2). pose proof (znth_some_range _ _ _ Hp2) as Hpr. rewrite znth_zseq in Hp1 by lia. injection Hp1 as <-.
      destruct (Hcol p k' Hp2) as (c & vs & Ec & _ & Eu & U1 & _ & Evs & _). cbn [fst snd]. rewrite Ec. cbn [obind]. rewrite Eu. cbn [obind]. rewrite Evs. cbn [obind].
      unfold build. rewrite Eu. destruct c; try discriminate U1; cbn [isUniform] in *; match goal with |- context [mapM ?h vs] => destruct (mapM h vs) end; cbn [obind]; discriminate.
    - apply znth_In with j. apply znth_combine; [apply znth_zseq; lia|exact Hj].
    - destruct (Hcol j k Hj) as (c & vs & Ec & Ea & Eu & U1 & R1 & Evs & Hvs). cbn [fst snd]. rewrite Ec. cbn [obind]. rewrite Eu. cbn [obind]. rewrite Evs. cbn [obind].
      rewrite (build_err M c vs x U1); [reflexivity| |].
      + apply znth_In with i. rewrite Hvs by exact Hi. unfold elem in Hx. rewrite Hd in Hx. cbn [pos size] in Hx. rewrite <- Hx. f_equal. lia.
      + unfold cell in Hv. rewrite Ea in Hv. rewrite (ctype_In M c v R1 U1) by (eapply znth_In; exact Hv). congruence.
  Qed.
End C104.
Print Assumptions C104_assigned.
Print Assumptions C104_same_types.
Print Assumptions C104_modified.
Print Assumptions C104_array.
Print Assumptions C105_misfit_partial.

(* -------- examples -------- *)
Definition asg := table_assign tM bigT (fun _ => true) seqb (fun s => s) 1.
Example C104_example :
  (good tM seqb exT /\ index_means (fun s => s) 1 exT (RowInts [3; 1]) (ColKeys ["b"]%string) [2; 0] ["b"]%string /\
   right_values tM seqb 2 ["b"]%string (RScal (ns "q")) (fun _ => [ns "q"; ns "q"])) /\
  asg None (RScal (ns "q")) (RowInts [3; 1]) (ColKeys ["b"]%string) exT =
    (Ok tt, mkTable (mkDict ["a"; "b"]%string [("a", RInts (vec [1; 2; 3])); ("b", RStrings (vec ["q"; "y"; "q"]%string))]%string) 3) /\
  asg None (RArr (RMixed (mkArr [2; 2] [ni 7; ns "q"; ni 8; ns "r"]))) (RowInts [3; 1]) ColAll exT =
    (Ok tt, mkTable (mkDict ["a"; "b"]%string [("a", RInts (vec [8; 2; 7])); ("b", RStrings (vec ["r"; "y"; "q"]%string))]%string) 3) /\
  asg (Some (fun l r => match l, r with RInts a, RInts b => Ok (TArr (RInts (vec (map (fun p => fst p + snd p) (combine (elems a) (elems b)))))) | _, _ => Err end))
      (RScal (ni 10)) (RowInts [3; 1]) (ColKeys ["a"]%string) exT =
    (Ok tt, mkTable (mkDict ["a"; "b"]%string [("a", RInts (vec [11; 2; 13])); ("b", RStrings (vec ["x"; "y"; "z"]%string))]%string) 3) /\
  asg None (RDict (mkDict ["b"; "a"]%string [])) (RowInts [3; 1]) ColAll exT = (Err, exT).
Proof.
  split; [split; [exact exT_good|split]|].
  - apply im_both. apply (rm_ints 1 exT [2; 0]). repeat constructor; cbn; lia.
  - apply (rv_scalar tM seqb 2 ["b"%string] (ns "q")).
  - split; [vm_compute; reflexivity|]. split; [vm_compute; reflexivity|]. split; vm_compute; reflexivity.
Qed.
(* T[1;]←5 in a table with a column of strings fails, but the first column has changed *)
Theorem C105_atomic_refuted : exists T', asg None (RScal (ni 5)) (RowOne 1) ColAll exT = (Err, T') /\ cell seqb exT 0 "a"%string = Some (ni 1) /\ cell seqb T' 0 "a"%string = Some (ni 5).
Proof. eexists. split; [vm_compute; reflexivity|]. split; vm_compute; reflexivity. Qed.
Example C105_example : asg None (RArr (RMixed (mkArr [1; 2] [ni 7; ni 8]))) (RowOne 1) ColAll exT = (Err, exT).
Proof. vm_compute. reflexivity. Qed.
