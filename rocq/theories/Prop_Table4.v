(* Prop_Table4.v -- queries: T[rows;cols;functions;group] (C108), the rows of their results (C109). *)
From Coq Require Import String.
From Verif Require Import Base M_Array S_Array P_Array M_Structural P_Transpose M_Number S_Number P_Number P_Tower M_Scalar P_Scalar M_Dict S_Dict P_Dict S_Operators M_Table S_Table P_Table P_Table2 P_Table3 P_Table4 P_Table5 P_Table6 Prop_Table.
Open Scope Z_scope.

Section C108.
  Context {P : Type} (M : methods P) (t : tower P) (hu : ntype -> bool) {K : Type} (keq : K -> K -> bool) (Hk : key_equality keq) (veq : sval P -> sval P -> bool) (Hv : key_equality veq).
  Local Notation sv := (sval P).
  Local Notation table := (@table P K).
  Local Notation agfun := (rep P -> outcome (@tval P)).
  Local Notation query := (tableQuery M t hu keq veq).
  Local Notation others k T := (filter (fun x => negb (keq x k)) (keysOf (tdict T))).

  (* the columns that are not the group *)
  Lemma In_others k (T : table) k' : In k' (others k T) <-> In k' (keysOf (tdict T)) /\ k' <> k.
  Proof. rewrite filter_In. split; intros (H1 & H2); (split; [exact H1|]). - intros ->. rewrite (keq_refl keq Hk) in H2. discriminate. - rewrite (keq_neq keq Hk) by exact H2. reflexivity. Qed.
  Lemma first_order_nodup {A} (l ks : list A) : first_order l ks -> NoDup ks /\ forall x, In x ks <-> In x l.
  Proof.
    induction 1 as [|l ks k H (IH1 & IH2) Hn|l ks k H (IH1 & IH2) Hi]; [split; [constructor|tauto]| |].
    - split; [apply NoDup_snoc; [exact IH1|rewrite IH2; exact Hn]|]. intros x. rewrite !in_app_iff, IH2. tauto.
    - split; [exact IH1|]. intros x. rewrite in_app_iff, IH2. cbn. split; [tauto|]. intros [Hx|[<-|[]]]; assumption.
  Qed.
  Lemma groups_ok (T : table) k col : good M keq T -> At keq (tdict T) k = Some col ->
    exists gs groups, first_order (elems (view col)) gs /\ Forall2 (group_rows keq T k) gs groups /\ Forall (Forall (fun i => 0 <= i < Rows T)) groups /\
      (let '(m, gvs) := groupings veq (elems (view col)) in map (fun v => (Some v, match mget veq m v with Some l => l | None => [] end)) gvs) = combine (map Some gs) groups /\ zlen gs = zlen groups.
  Proof.
    intros G E. pose proof (groupings_ok veq Hv (elems (view col))) as (Hf & Hm). destruct (groupings veq (elems (view col))) as (m, gvs). cbn [fst snd] in *.
    exists gvs, (map (fun v => match mget veq m v with Some l => l | None => [] end) gvs). split; [exact Hf|].
    assert (HF : forall v, In v gvs -> group_rows keq T k v (match mget veq m v with Some l => l | None => [] end) /\ Forall (fun i => 0 <= i < Rows T) (match mget veq m v with Some l => l | None => [] end)).
    { intros v Hi. apply (first_order_nodup _ _ Hf) in Hi. specialize (Hm v). destruct (mget veq m v) as [rows|]; [|contradiction]. destruct Hm as (_ & Hinc & Hr). split.
      - split; [exact Hinc|]. intros i. rewrite Hr. unfold cell. rewrite E. tauto.
      - apply Forall_forall. intros i Hi'. apply Hr in Hi'. apply znth_some_range in Hi'. destruct (proj2 (proj2 G) k col E) as (_ & _ & (_ & Hz)). lia. }
    split; [|split; [|split]].
    - clear -HF. induction gvs as [|v gvs IH]; constructor; [apply HF; left; reflexivity|apply IH; intros w Hw; apply HF; right; exact Hw].
    - apply Forall_forall. intros rows Hr. apply in_map_iff in Hr. destruct Hr as (v & <- & Hi). apply HF. exact Hi.
    - clear. induction gvs as [|v gvs IH]; [reflexivity|]. cbn [map combine]. f_equal. exact IH.
    - unfold zlen. rewrite map_length. reflexivity.
  Qed.
  Lemma unify_any (vs : list sv) u : tower_ok M t -> imports_bottom M t -> (forall x, In x vs -> plain M t hu x) -> Unify M t hu (mixed vs) true = Ok (u, true) ->
    unified M t vs (elems (view u)) /\ dims (view u) = [zlen vs] /\ (vs <> [] -> fitting M (zlen vs) u).
  Proof.
    intros Ht Hi Hp E. destruct vs as [|v vs].
    - cbn in E. injection E as <-. split; [left; reflexivity|]. split; [reflexivity|congruence].
    - unfold mixed in E. apply unify_uptype_any in E; try assumption; try discriminate; [|split; [intros _; apply wf_vec|exact Logic.I]]. destruct E as (D & U & I & R). cbn [view elems dims] in *.
      split; [exact U|]. split; [exact D|]. intros _. split; [exact I|]. split; [exact R|]. split; [exact D|]. destruct U as [U|(x & _ & U)]; [rewrite U; reflexivity|symmetry; apply Forall2_zlen in U; exact U].
  Qed.
  Lemma concat_len {A} (l : list (list A)) : zlen (concat l) = fold_right Z.add 0 (map zlen l).
  Proof. induction l as [|x l IH]; [reflexivity|]. cbn [concat map fold_right]. rewrite zlen_app, IH. reflexivity. Qed.
  (* the group column of the result *)
  Definition repeats (gs : list sv) (rs : list (@tval P)) : list sv := concat (map (fun vr => repeat (fst vr) (length (values_of (snd vr)))) (combine gs rs)).
  Lemma repeats_eq (gs : list sv) (groups : list (list Z)) rs : zlen gs = zlen groups -> zlen rs = zlen groups ->
    concat (map (fun gc : option sv * list Z * Z => match fst (fst gc) with Some v => repeat v (Z.to_nat (snd gc)) | None => [] end) (combine (combine (map Some gs) groups) (map zlen (map values_of rs)))) = repeats gs rs.
  Proof.
    revert groups rs. induction gs as [|v gs IH]; intros [|g groups] [|r rs] H1 H2; try (unfold zlen in *; cbn in *; lia); try reflexivity.
    cbn [map combine concat fst snd]. unfold repeats in *. cbn [combine map concat fst snd]. f_equal; [f_equal; unfold zlen; lia|]. apply IH; unfold zlen in *; cbn in *; lia.
  Qed.
  Lemma repeats_len (gs : list sv) rs : zlen gs = zlen rs -> zlen (repeats gs rs) = zlen (concat (map values_of rs)).
  Proof.
    revert rs. induction gs as [|v gs IH]; intros [|r rs] H; try (unfold zlen in *; cbn in *; lia); try reflexivity. unfold repeats in *. cbn [combine map concat fst snd]. rewrite !zlen_app, IH by (unfold zlen in *; cbn in *; lia). f_equal. unfold zlen. rewrite repeat_length. reflexivity.
  Qed.
  Lemma repeats_In (gs : list sv) rs x : In x (repeats gs rs) -> In x gs.
  Proof. unfold repeats. intros H. apply in_concat in H. destruct H as (l & Hl & Hx). apply in_map_iff in Hl. destruct Hl as ((v, r) & <- & Hvr). cbn in Hx. apply repeat_spec in Hx. subst x. apply in_combine_l in Hvr. exact Hvr. Qed.

  (* group by the column k: the groups are the values of k in the order of their first
     occurrence; each function is applied, for each group, to the cells of its column in the
     rows of the group, in order; the results follow each other, and the column k has the
     value of the group for each of them *)
  Theorem C108_grouped (T W : table) a k col ags : tower_ok M t -> imports_bottom M t -> good M keq T -> plain_cells M t hu keq T -> At keq (tdict T) k = Some col ->
    aggregates keq a (others k T) ags -> ags <> [] -> NoDup (map nm ags) -> ~ In k (map nm ags) ->
    (forall name f key u r x, In (name, f, key) ags -> f u = Ok r -> In x (values_of r) -> plain M t hu x) ->
    query T a (GKey k) = Ok W ->
    exists gs groups, first_order (elems (view col)) gs /\ Forall2 (group_rows keq T k) gs groups /\
      keysOf (tdict W) = k :: map nm ags /\
      (forall name f key, In (name, f, key) ags -> exists rs c, results M keq T groups f key rs /\ At keq (tdict W) name = Some c /\
         zlen (concat (map values_of rs)) = Rows W /\ unified M t (concat (map values_of rs)) (elems (view c))) /\
      (exists name f key rs c, hd_error ags = Some (name, f, key) /\ results M keq T groups f key rs /\ At keq (tdict W) k = Some c /\ unified M t (repeats gs rs) (elems (view c))) /\
      (0 < Rows W -> good M keq W).
  Proof.
    intros Ht Hi G Hpl Ek Ha Hne Hn Hnk Hf E. assert (Hkin : In k (keysOf (tdict T))) by (apply G; exists col; exact Ek).
    destruct (groups_ok T k col G Ek) as (gs & groups & Hfo & HF & Hr & Egs & Hz). exists gs, groups. split; [exact Hfo|]. split; [exact HF|].
    unfold tableQuery in E. cbn [group_column] in E.
    assert (Eex : existsb (fun x => keq x k) (keysOf (tdict T)) = true) by (apply existsb_exists; exists k; split; [exact Hkin|apply (keq_refl keq Hk)]). rewrite Eex in E.
    destruct (column_ok M keq T k G Hkin) as (col' & Ec & Ea' & Uc & Rc & Vc). assert (col' = col) by congruence. subst col'. rewrite Ec in E. cbn [obind] in E. unfold uniform at 1 in E. rewrite Uc in E. cbn [obind fst snd] in E. unfold vals in E.
    destruct (aggregations_ok keq a _ ags Ha) as (Eag & Hkeys). rewrite Eag in E. cbn [obind] in E. rewrite Egs in E.
    assert (Esnd : map snd (combine (map Some gs) groups) = groups).
    { clear -Hz. revert groups Hz. induction gs as [|v gs IH]; intros [|g groups] Hz; try (unfold zlen in *; cbn in *; lia); [reflexivity|]. cbn [map combine snd]. f_equal. apply IH. unfold zlen in *. cbn in *. lia. }
    rewrite Esnd in E. destruct (query_loop M t hu keq T groups ags None (mkDict [] [])) as [(d', first')| |] eqn:El; try discriminate. cbn [obind fst snd] in E.
    assert (Hkeys' : forall x, In x ags -> In (snd x) (keysOf (tdict T))) by (intros x Hx; apply Hkeys in Hx; apply In_others in Hx; apply Hx).
    destruct (loop_inv M t hu keq Hk T groups ags None (mkDict [] []) d' first' G Hkeys') as (P1 & P2 & P3 & P4 & P5); [split; [constructor|intros k'; cbn; split; [intros []|intros (v & Ev); discriminate]]|exact Hn|intros x _ []|exact El|].
    assert (Hres : forall name f key vss u, In (name, f, key) ags -> col_result M t hu keq T groups f key vss u -> exists rs, results M keq T groups f key rs /\ vss = map values_of rs /\
       unified M t (concat vss) (elems (view u)) /\ dims (view u) = [zlen (concat vss)] /\ (concat vss <> [] -> fitting M (zlen (concat vss)) u)).
    { intros name f key vss u Hx (c & Hc1 & Hc2 & Hc3 & _). destruct (aggregate_spec M keq T key c groups f vss G Hc1 Hr Hc2) as (rs & Hrs & ->). exists rs. split; [exact Hrs|]. split; [reflexivity|].
      apply (unify_any _ _ Ht Hi); [|exact Hc3]. intros x Hx'. apply in_concat in Hx'. destruct Hx' as (l & Hl & Hx'). apply in_map_iff in Hl. destruct Hl as (r & <- & Hr'). apply In_znth in Hr'. destruct Hr' as (i & Hi').
      apply F2_znth in Hrs. destruct Hrs as (Hzr & Hrs). pose proof (znth_some_range _ _ _ Hi'). destruct (znth groups i) as [rows|] eqn:Er; [|apply znth_none in Er; lia]. destruct (Hrs _ _ _ Er Hi') as (u' & _ & Hfu). apply (Hf name f key u' r x Hx Hfu Hx'). }
    destruct ags as [|((name0, f0), key0) ags']; [congruence|]. destruct P5 as (vss0 & u0 & n0 & Hc0 & Hfirst). destruct (Hres _ _ _ _ _ (or_introl eq_refl) Hc0) as (rs0 & Hrs0 & -> & U0 & D0 & F0).
    rewrite Hfirst in E. cbn [fst snd] in E.
    assert (Hzr : zlen rs0 = zlen groups) by (symmetry; apply F2_znth in Hrs0; apply Hrs0). rewrite (repeats_eq gs groups rs0 Hz Hzr) in E.
    destruct (Unify M t hu (mixed (repeats gs rs0)) true) as [(ug, ok)| |] eqn:Eg; try discriminate. cbn [obind fst snd] in E. destruct ok; [|discriminate]. injection E as <-. cbn [tdict Rows].
    assert (Hn0 : n0 = zlen (concat (map values_of rs0))). { destruct (P4 _ _ _ (or_introl eq_refl)) as (vss & u & n & counts & Hc & _ & E1 & D1). rewrite Hfirst in E1. injection E1 as <- <-.
      destruct Hc as (c & A1 & A2 & A3 & _), Hc0 as (c0 & B1 & B2 & B3 & _). rewrite A1 in B1. injection B1 as <-. rewrite A2 in B2. injection B2 as ->. rewrite A3 in B3. injection B3 as <-. congruence. }
    apply (unify_any _ _ Ht Hi) in Eg; [|intros x Hx; apply repeats_In in Hx; apply (first_order_nodup _ _ Hfo) in Hx; apply In_znth in Hx; destruct Hx as (i & Hx); apply (Hpl i k); unfold cell; rewrite Ek; exact Hx].
    destruct Eg as (Ug & Dg & Fg). rewrite repeats_len in Dg, Fg by lia.
    assert (Hnd : ~ In k (keysOf d')) by (rewrite P2; cbn [keysOf app]; exact Hnk).
    assert (Hat : forall k', At keq (mkDict (k :: keysOf d') (mset keq (mapOf d') k ug)) k' = if keq k k' then Some ug else At keq d' k') by (intros k'; unfold At; cbn [mapOf]; apply (mget_mset keq Hk)).
    split; [cbn [keysOf]; rewrite P2; reflexivity|]. split; [|split].
    - intros name f key Hx. destruct (P4 name f key Hx) as (vss & u & n & counts & Hc & Hau & E1 & D1). rewrite Hfirst in E1. injection E1 as <- <-. destruct (Hres _ _ _ _ _ Hx Hc) as (rs & Hrs & -> & U1 & D2 & _).
      exists rs, u. split; [exact Hrs|]. split; [|split; [congruence|exact U1]]. rewrite Hat. destruct (keq k name) eqn:Ekn; [|exact Hau]. exfalso. apply Hk in Ekn. subst name. apply Hnk. apply (in_map nm) in Hx. exact Hx.
    - exists name0, f0, key0, rs0, ug. split; [reflexivity|]. split; [exact Hrs0|]. split; [rewrite Hat, (keq_refl keq Hk); reflexivity|exact Ug].
    - intros Hpos. assert (Hpos' : 0 < zlen (concat (map values_of rs0))) by (cbn [Rows] in Hpos; lia). split; [|split].
      + split; [cbn [keysOf]; constructor; [exact Hnd|apply P1]|]. intros k'. cbn [keysOf tdict In]. rewrite Hat. destruct (keq k k') eqn:Ekk.
        * apply Hk in Ekk. split; [intros _; eexists; reflexivity|intros _; left; exact Ekk].
        * rewrite <- (proj2 P1 k'). split; [intros [->|H]; [rewrite (keq_refl keq Hk) in Ekk; discriminate|exact H]|auto].
      + cbn [Rows]. lia.
      + cbn [tdict Rows]. intros k' r Er. rewrite Hat in Er. destruct (keq k k') eqn:Ekk.
        * injection Er as <-. rewrite Hn0. apply Fg. intros E0. pose proof (repeats_len gs rs0 ltac:(lia)) as Hl. rewrite E0 in Hl. change (zlen (@nil sv)) with 0 in Hl. lia.
        * assert (Hk' : In k' (keysOf d')) by (apply P1; exists r; exact Er). rewrite P2 in Hk'. cbn [keysOf app] in Hk'. apply in_map_iff in Hk'. destruct Hk' as (((name, f), key) & <- & Hx).
          destruct (P4 name f key Hx) as (vss & u & n & counts & Hc & Hau & E1 & D1). rewrite Hfirst in E1. injection E1 as <- <-. destruct (Hres _ _ _ _ _ Hx Hc) as (rs & _ & -> & _ & D2 & F2).
          cbn [nm fst] in Er. rewrite Hau in Er. injection Er as <-. assert (n0 = zlen (concat (map values_of rs))) by congruence. rewrite H. apply F2. intros E0. rewrite E0 in H. change (zlen (@nil sv)) with 0 in H. lia.
  Qed.

  (* without a group the functions are applied to the whole columns *)
  Theorem C108_whole (T W : table) a ags : tower_ok M t -> imports_bottom M t -> good M keq T ->
    aggregates keq a (keysOf (tdict T)) ags -> ags <> [] -> NoDup (map nm ags) ->
    (forall name f key u r x, In (name, f, key) ags -> f u = Ok r -> In x (values_of r) -> plain M t hu x) ->
    query T a GNone = Ok W ->
    keysOf (tdict W) = map nm ags /\
    (forall name f key, In (name, f, key) ags -> exists u r c, part M keq T (zseq (Rows T)) key u /\ f u = Ok r /\ At keq (tdict W) name = Some c /\
       zlen (values_of r) = Rows W /\ unified M t (values_of r) (elems (view c))) /\
    (0 < Rows W -> good M keq W).
  Proof.
    intros Ht Hi G Ha Hne Hn Hf E. unfold tableQuery in E. cbn [group_column obind fst snd] in E.
    destruct (aggregations_ok keq a _ ags Ha) as (Eag & Hkeys). rewrite Eag in E. cbn [obind map snd] in E.
    destruct (query_loop M t hu keq T [zseq (Rows T)] ags None (mkDict [] [])) as [(d', first')| |] eqn:El; try discriminate. cbn [obind fst snd] in E. injection E as <-.
    destruct (loop_inv M t hu keq Hk T [zseq (Rows T)] ags None (mkDict [] []) d' first' G Hkeys) as (P1 & P2 & P3 & P4 & P5); [split; [constructor|intros k'; cbn; split; [intros []|intros (v & Ev); discriminate]]|exact Hn|intros x _ []|exact El|].
    assert (Hr : Forall (Forall (fun i => 0 <= i < Rows T)) [zseq (Rows T)]) by (constructor; [apply Forall_forall; intros i Hi'; apply In_zseq in Hi'; exact Hi'|constructor]).
    assert (Hres : forall name f key vss u, In (name, f, key) ags -> col_result M t hu keq T [zseq (Rows T)] f key vss u -> exists y r, part M keq T (zseq (Rows T)) key y /\ f y = Ok r /\ concat vss = values_of r /\
       unified M t (values_of r) (elems (view u)) /\ dims (view u) = [zlen (values_of r)] /\ (values_of r <> [] -> fitting M (zlen (values_of r)) u)).
    { intros name f key vss u Hx (c & Hc1 & Hc2 & Hc3 & _). destruct (aggregate_spec M keq T key c _ f vss G Hc1 Hr Hc2) as (rs & Hrs & ->). inversion Hrs as [|? r ? rs' Hy Hrs']; subst. inversion Hrs'; subst. destruct Hy as (y & Hy1 & Hy2).
      cbn [map concat] in Hc3 |- *. rewrite app_nil_r in *. exists y, r. split; [exact Hy1|]. split; [exact Hy2|]. split; [reflexivity|]. apply (unify_any _ _ Ht Hi); [|exact Hc3]. intros x Hx'. apply (Hf name f key y r x Hx Hy2 Hx'). }
    assert (Hrow : forall name f key, In (name, f, key) ags -> exists y r c, part M keq T (zseq (Rows T)) key y /\ f y = Ok r /\ At keq d' name = Some c /\ zlen (values_of r) = match first' with Some (n, _) => n | None => 0 end /\ unified M t (values_of r) (elems (view c)) /\ (values_of r <> [] -> fitting M (zlen (values_of r)) c)).
    { intros name f key Hx. destruct (P4 name f key Hx) as (vss & u & n & counts & Hc & Hau & E1 & D1). destruct (Hres _ _ _ _ _ Hx Hc) as (y & r & H1 & H2 & H3 & H4 & H5 & H6). exists y, r, u. split; [exact H1|]. split; [exact H2|]. split; [exact Hau|]. split; [rewrite E1; congruence|]. split; assumption. }
    cbn [tdict Rows]. split; [rewrite P2; reflexivity|]. split.
    - intros name f key Hx. destruct (Hrow name f key Hx) as (y & r & c & H1 & H2 & H3 & H4 & H5 & _). exists y, r, c. split; [exact H1|]. split; [exact H2|]. split; [exact H3|]. split; assumption.
    - intros Hpos. split; [exact P1|]. split; [cbn [Rows]; lia|]. cbn [tdict Rows]. intros k' r Er. assert (Hk' : In k' (keysOf d')) by (apply P1; exists r; exact Er). rewrite P2 in Hk'. cbn [keysOf app] in Hk'. apply in_map_iff in Hk'. destruct Hk' as (((name, f), key) & <- & Hx).
      destruct (Hrow name f key Hx) as (y & r' & c & H1 & H2 & H3 & H4 & H5 & H6). cbn [nm fst] in Er. rewrite H3 in Er. injection Er as <-. rewrite <- H4. apply H6. intros E0. rewrite E0 in H4. change (zlen (@nil sv)) with 0 in H4. lia.
  Qed.

  (* functions that return a scalar of one type for every group: the query succeeds, and has
     one row for every group *)
  Theorem C108_scalars (T : table) a k col ags gs (res : K -> sv -> sv) : good M keq T -> plain_cells M t hu keq T -> At keq (tdict T) k = Some col -> 0 < Rows T ->
    aggregates keq a (others k T) ags -> ags <> [] -> NoDup (map nm ags) -> ~ In k (map nm ags) -> first_order (elems (view col)) gs ->
    (forall name f key v rows u, In (name, f, key) ags -> In v gs -> group_rows keq T k v rows -> part M keq T rows key u -> f u = Ok (TScal (res name v))) ->
    (forall name v w, In name (map nm ags) -> In v gs -> In w gs -> plain M t hu (res name v) /\ stypeOf M (res name v) = stypeOf M (res name w)) ->
    exists W, query T a (GKey k) = Ok W /\ keysOf (tdict W) = k :: map nm ags /\ Rows W = zlen gs /\ good M keq W /\
      forall i v, znth gs i = Some v -> cell keq W i k = Some v /\ forall name, In name (map nm ags) -> cell keq W i name = Some (res name v).
  Proof.
    intros G Hpl Ek Hpos Ha Hne Hn Hnk Hfo Hf Hty. assert (Hkin : In k (keysOf (tdict T))) by (apply G; exists col; exact Ek).
    destruct (groups_ok T k col G Ek) as (gs' & groups & Hfo' & HF & Hr & Egs & Hz). assert (gs' = gs) by (exact (first_order_fun _ _ _ Hfo' Hfo)). subst gs'. clear Hfo'.
    destruct (aggregations_ok keq a _ ags Ha) as (Eag & Hkeys).
    assert (Hkeys' : forall x, In x ags -> In (snd x) (keysOf (tdict T))) by (intros x Hx; apply Hkeys in Hx; apply In_others in Hx; apply Hx).
    destruct (column_ok M keq T k G Hkin) as (col' & Ec & Ea' & Uc & Rc & Vc). assert (col' = col) by congruence. subst col'.
    assert (Hgs : gs <> []). { intros ->. destruct (znth (elems (view col)) 0) as [v|] eqn:Ev; [|apply znth_none in Ev; destruct Vc; lia]. apply znth_In in Ev. apply (first_order_nodup _ _ Hfo) in Ev. contradiction. }
    assert (Hcol : forall name f key, In (name, f, key) ags -> exists u, col_result M t hu keq T groups f key (map (fun v => [res name v]) gs) u /\ fitting M (zlen gs) u /\ elems (view u) = map (res name) gs).
    { intros name f key Hx. destruct (column_ok M keq T key G (Hkeys' _ Hx)) as (c & _ & Eac & _).
      destruct (aggregate_total M keq T key c groups f G Eac Hr) as (vss & Ev).
      { intros rows u Hrows Hp. apply In_znth in Hrows. destruct Hrows as (i & Hi). apply F2_znth in HF. destruct HF as (_ & HF). pose proof (znth_some_range _ _ _ Hi). destruct (znth gs i) as [v|] eqn:Evi; [|apply znth_none in Evi; lia].
        exists (TScal (res name v)). apply (Hf name f key v rows u Hx (znth_In _ _ _ Evi) (HF _ _ _ Evi Hi) Hp). }
      destruct (aggregate_spec M keq T key c groups f vss G Eac Hr Ev) as (rs & Hrs & ->).
      assert (Er : map values_of rs = map (fun v => [res name v]) gs).
      { apply F2_znth in Hrs. destruct Hrs as (Hzr & Hrs). apply F2_znth in HF. destruct HF as (_ & HF). apply znth_ext; [unfold zlen in *; rewrite !map_length; lia|]. intros i Hi. rewrite !znth_map. unfold zlen in Hi. rewrite map_length in Hi.
        destruct (znth rs i) as [r|] eqn:Eri; [|apply znth_none in Eri; unfold zlen in *; lia]. destruct (znth groups i) as [rows|] eqn:Egi; [|apply znth_none in Egi; unfold zlen in *; lia]. destruct (znth gs i) as [v|] eqn:Evi; [|apply znth_none in Evi; unfold zlen in *; lia].
        destruct (Hrs _ _ _ Egi Eri) as (u & Hp & Hfu). rewrite (Hf name f key v rows u Hx (znth_In _ _ _ Evi) (HF _ _ _ Evi Egi) Hp) in Hfu. injection Hfu as <-. reflexivity. }
      rewrite Er in Ev. assert (Econ : concat (map (fun v => [res name v]) gs) = map (res name) gs) by (clear; induction gs as [|v gs IH]; [reflexivity|]; cbn; f_equal; exact IH).
      assert (Hzm : zlen (map (res name) gs) = zlen gs) by (unfold zlen; rewrite map_length; reflexivity). assert (Hnm : In name (map nm ags)) by (apply (in_map nm) in Hx; exact Hx).
      destruct (unify_one_type M t hu (map (res name) gs) [zlen (map (res name) gs)] true) as (u & Eu & V & U & R).
      - intros x y Hx' Hy'. apply in_map_iff in Hx', Hy'. destruct Hx' as (v & <- & Hv1), Hy' as (w & <- & Hw1). apply (Hty name v w Hnm Hv1 Hw1).
      - apply wf_vec. - destruct gs; [congruence|discriminate].
      - intros x Hx'. apply in_map_iff in Hx'. destruct Hx' as (v & <- & Hv1). apply (Hty name v v Hnm Hv1 Hv1).
      - exists u. split; [|rewrite V; split; [|reflexivity]].
        + exists c. split; [exact Eac|]. split; [exact Ev|]. rewrite Econ. split; [exact Eu|rewrite V; reflexivity].
        + split; [exact U|]. split; [exact R|]. unfold vector. rewrite V. cbn [dims elems]. split; [f_equal; exact Hzm|exact Hzm]. }
    assert (Hc1 : map zlen (map (fun v => [v]) gs) = map (fun _ => 1) gs) by (rewrite map_map; reflexivity).
    destruct (loop_total M t hu keq T groups ags (zlen gs) (map (fun _ : sv => 1) gs) None (mkDict [] []) G Hkeys') as ((d', first') & El).
    { intros name f key Hx. destruct (Hcol name f key Hx) as (u & H1 & H2 & H3). exists (map (fun v => [res name v]) gs), u. split; [exact H1|]. split; [apply H2|]. rewrite map_map. reflexivity. }
    { left. reflexivity. }
    destruct (loop_inv M t hu keq Hk T groups ags None (mkDict [] []) d' first' G Hkeys') as (P1 & P2 & P3 & P4 & P5); [split; [constructor|intros k'; cbn; split; [intros []|intros (v & Ev); discriminate]]|exact Hn|intros x _ []|exact El|].
    assert (Huniq : forall f key vss u vss' u', col_result M t hu keq T groups f key vss u -> col_result M t hu keq T groups f key vss' u' -> vss = vss' /\ u = u').
    { intros f key vss u vss' u' (c & A1 & A2 & A3 & _) (c' & B1 & B2 & B3 & _). assert (c' = c) by congruence. subst c'. assert (vss' = vss) by congruence. subst vss'. split; [reflexivity|congruence]. }
    assert (Hfirst : first' = Some (zlen gs, map (fun _ => 1) gs)).
    { destruct ags as [|((name0, f0), key0) ags']; [congruence|]. destruct P5 as (vss & u & n & Hc & ->). destruct (Hcol _ _ _ (or_introl eq_refl)) as (u' & Hc' & F' & _). destruct (Huniq _ _ _ _ _ _ Hc Hc') as (-> & ->).
      destruct (P4 _ _ _ (or_introl eq_refl)) as (vss & u & n' & counts & Hc2 & _ & E1 & D1). injection E1 as <- <-. destruct (Huniq _ _ _ _ _ _ Hc2 Hc') as (_ & ->). destruct F' as (_ & _ & (D2 & _)). rewrite D1 in D2. injection D2 as ->. rewrite map_map. reflexivity. }
    assert (Hrep : concat (map (fun gc : option sv * list Z * Z => match fst (fst gc) with Some v => repeat v (Z.to_nat (snd gc)) | None => [] end) (combine (combine (map Some gs) groups) (map (fun _ => 1) gs))) = gs).
    { clear -Hz. revert groups Hz. induction gs as [|v gs IH]; intros [|g groups] Hz; try (unfold zlen in *; cbn in *; lia); [reflexivity|]. cbn [map combine concat fst snd]. change (repeat v (Z.to_nat 1)) with [v]. cbn [app]. f_equal. apply IH. unfold zlen in *. cbn in *. lia. }
    destruct (unify_one_type M t hu gs [zlen gs] true) as (ug & Eug & Vg & Ug & Rg).
    { intros x y Hx Hy. apply (rep_one_type M col Rc Uc); apply (first_order_nodup _ _ Hfo); assumption. } { apply wf_vec. } { exact Hgs. }
    { intros x Hx. apply (first_order_nodup _ _ Hfo) in Hx. apply In_znth in Hx. destruct Hx as (i & Hx). apply (Hpl i k). unfold cell. rewrite Ek. exact Hx. }
    assert (Fg : fitting M (zlen gs) ug) by (split; [exact Ug|]; split; [exact Rg|]; unfold vector; rewrite Vg; split; reflexivity).
    assert (Hat : forall k', At keq (mkDict (k :: keysOf d') (mset keq (mapOf d') k ug)) k' = if keq k k' then Some ug else At keq d' k') by (intros k'; unfold At; cbn [mapOf]; apply (mget_mset keq Hk)).
    assert (Hnd : ~ In k (keysOf d')) by (rewrite P2; cbn [keysOf app]; exact Hnk).
    assert (Hd' : forall name, In name (map nm ags) -> exists u, At keq d' name = Some u /\ fitting M (zlen gs) u /\ elems (view u) = map (res name) gs).
    { intros name Hi. apply in_map_iff in Hi. destruct Hi as (((name', f), key) & <- & Hx). destruct (P4 _ _ _ Hx) as (vss & u & n & counts & Hc & Hau & _). destruct (Hcol _ _ _ Hx) as (u' & Hc' & F' & He). destruct (Huniq _ _ _ _ _ _ Hc Hc') as (_ & ->). exists u'. split; [exact Hau|]. split; assumption. }
    exists (mkTable (mkDict (k :: keysOf d') (mset keq (mapOf d') k ug)) (zlen gs)).
    split; [|split; [cbn [tdict keysOf]; rewrite P2; reflexivity|split; [reflexivity|split]]].
    - unfold tableQuery. cbn [group_column].
      assert (Eex : existsb (fun x => keq x k) (keysOf (tdict T)) = true) by (apply existsb_exists; exists k; split; [exact Hkin|apply (keq_refl keq Hk)]). rewrite Eex, Ec. cbn [obind]. unfold uniform at 1. rewrite Uc. cbn [obind fst snd].
      rewrite Eag. cbn [obind]. unfold vals. rewrite Egs.
      assert (Esnd : map snd (combine (map Some gs) groups) = groups).
      { clear -Hz. revert groups Hz. induction gs as [|v gs IH]; intros [|g groups] Hz; try (unfold zlen in *; cbn in *; lia); [reflexivity|]. cbn [map combine snd]. f_equal. apply IH. unfold zlen in *. cbn in *. lia. }
      rewrite Esnd, El. cbn [obind fst snd]. rewrite Hfirst, Hrep. unfold mixed. rewrite Eug. reflexivity.
    - split; [|split].
      + split; [cbn [keysOf]; constructor; [exact Hnd|apply P1]|]. intros k'. cbn [keysOf tdict In]. rewrite Hat. destruct (keq k k') eqn:Ekk.
        * apply Hk in Ekk. split; [intros _; eexists; reflexivity|intros _; left; exact Ekk].
        * rewrite <- (proj2 P1 k'). split; [intros [->|H]; [rewrite (keq_refl keq Hk) in Ekk; discriminate|exact H]|auto].
      + cbn [Rows]. apply zlen_nonneg.
      + cbn [tdict Rows]. intros k' r Er. rewrite Hat in Er. destruct (keq k k') eqn:Ekk; [injection Er as <-; exact Fg|].
        assert (Hk' : In k' (keysOf d')) by (apply P1; exists r; exact Er). rewrite P2 in Hk'. cbn [keysOf app] in Hk'. destruct (Hd' k' Hk') as (u & Eu & F & _). rewrite Eu in Er. injection Er as <-. exact F.
    - intros i v Hi. unfold cell. cbn [tdict]. split.
      + rewrite Hat, (keq_refl keq Hk), Vg. exact Hi.
      + intros name Hnm. rewrite Hat. destruct (keq k name) eqn:Ekn; [exfalso; apply Hk in Ekn; subst name; contradiction|]. destruct (Hd' name Hnm) as (u & Eu & _ & He). rewrite Eu, He, znth_map, Hi. reflexivity.
  Qed.
  (* a group that does not exist, and numbers of functions and columns that do not match *)
  Theorem C108_no_group (T : table) a k : ~ In k (keysOf (tdict T)) -> query T a (GKey k) = Err.
  Proof.
    intros H. unfold tableQuery. cbn [group_column]. replace (existsb (fun x => keq x k) (keysOf (tdict T))) with false; [reflexivity|]. symmetry. apply not_true_is_false. intros E. apply existsb_exists in E. destruct E as (x & Hx & E). apply Hk in E. subst x. contradiction.
  Qed.
  Theorem C108_mismatch (T : table) (d : dict K (option agfun)) k : good M keq T -> In k (keysOf (tdict T)) -> zlen (keysOf d) <> zlen (others k T) -> zlen (keysOf d) <> 1 -> zlen (others k T) <> 1 ->
    query T (ADict d) (GKey k) = Err.
  Proof.
    intros G Hi H1 H2 H3. unfold tableQuery. cbn [group_column]. assert (Eex : existsb (fun x => keq x k) (keysOf (tdict T)) = true) by (apply existsb_exists; exists k; split; [exact Hi|apply (keq_refl keq Hk)]). rewrite Eex.
    destruct (column_ok M keq T k G Hi) as (c & Ec & _ & U & _). rewrite Ec. cbn [obind]. unfold uniform at 1. rewrite U. cbn [obind fst snd]. unfold aggregations.
    destruct (Z.eqb_spec (zlen (keysOf d)) 1); [contradiction|]. destruct (Z.eqb_spec (zlen (others k T)) 1); [contradiction|]. cbn [andb]. destruct (Z.eqb_spec (zlen (keysOf d)) (zlen (others k T))); [contradiction|reflexivity].
  Qed.

  (* C109.  If all functions return as many values for a group as the first one, then every
     row of the result has the value of a group and the results for this group *)
  Lemma aligned (gs : list sv) : forall (rs0 rs : list (@tval P)), zlen gs = zlen rs0 -> zlen gs = zlen rs ->
    (forall i r0 r, znth rs0 i = Some r0 -> znth rs i = Some r -> zlen (values_of r0) = zlen (values_of r)) ->
    forall i v x, znth (repeats gs rs0) i = Some v -> znth (concat (map values_of rs)) i = Some x -> exists r, In (v, r) (combine gs rs) /\ In x (values_of r).
  Proof.
    induction gs as [|g gs IH]; intros [|r0 rs0] [|r rs] H1 H2 Hc i v x Hv1 Hx; try (unfold zlen in *; cbn in *; lia); [apply znth_In in Hv1; contradiction|].
    unfold repeats in Hv1. cbn [combine map concat fst snd] in *. pose proof (Hc 0 r0 r eq_refl eq_refl) as H0. assert (Hl : zlen (repeat g (length (values_of r0))) = zlen (values_of r)) by (unfold zlen in *; rewrite repeat_length; exact H0).
    pose proof (znth_some_range _ _ _ Hv1) as Hir. destruct (Z.lt_ge_cases i (zlen (values_of r))) as [Hlt|Hge].
    - rewrite znth_app_l in Hv1, Hx by lia. apply znth_In in Hv1, Hx. apply repeat_spec in Hv1. subst v. exists r. split; [left; reflexivity|exact Hx].
    - rewrite znth_app_r in Hv1, Hx by lia. rewrite Hl in Hv1. destruct (IH rs0 rs) with (i := i - zlen (values_of r)) (v := v) (x := x) as (r' & A & B); try assumption; try (unfold zlen in *; cbn in *; lia).
      + intros j a b Ha Hb. apply (Hc (j + 1)); pose proof (znth_some_range _ _ _ Ha); rewrite znth_cons_pos by lia; replace (j + 1 - 1) with j by lia; assumption.
      + exists r'. split; [right; exact A|exact B].
  Qed.
  Theorem C109_aligned_partial (T W : table) a k col ags : tower_ok M t -> imports_bottom M t -> good M keq T -> plain_cells M t hu keq T -> At keq (tdict T) k = Some col ->
    aggregates keq a (others k T) ags -> ags <> [] -> NoDup (map nm ags) -> ~ In k (map nm ags) ->
    (forall name f key u r x, In (name, f, key) ags -> f u = Ok r -> In x (values_of r) -> plain M t hu x) ->
    (* all functions return vectors of a length that only depends on the length of the argument *)
    (forall name f key u name' f' key' u' r r', In (name, f, key) ags -> In (name', f', key') ags -> zlen (elems (view u)) = zlen (elems (view u')) -> f u = Ok r -> f' u' = Ok r' -> zlen (values_of r) = zlen (values_of r')) ->
    query T a (GKey k) = Ok W ->
    exists gcol, zlen gcol = Rows W /\ (exists c, At keq (tdict W) k = Some c /\ unified M t gcol (elems (view c))) /\
      forall name f key, In (name, f, key) ags -> exists vals c, zlen vals = Rows W /\ At keq (tdict W) name = Some c /\ unified M t vals (elems (view c)) /\
        forall i v x, znth gcol i = Some v -> znth vals i = Some x -> exists rows u r, group_rows keq T k v rows /\ part M keq T rows key u /\ f u = Ok r /\ In x (values_of r).
  Proof.
    intros Ht Hi G Hpl Ek Ha Hne Hn Hnk Hf Hcnt E. destruct (C108_grouped T W a k col ags Ht Hi G Hpl Ek Ha Hne Hn Hnk Hf E) as (gs & groups & Hfo & HF & _ & Hcols & (name0 & f0 & key0 & rs0 & c0 & Hhd & Hrs0 & Ec0 & Uc0) & _).
    assert (Hin0 : In (name0, f0, key0) ags) by (destruct ags as [|x ags']; [discriminate|]; injection Hhd as ->; left; reflexivity).
    apply F2_znth in HF. destruct HF as (HzF & HF). pose proof Hrs0 as Hrs0'. apply F2_znth in Hrs0'. destruct Hrs0' as (Hz0 & Hp0).
    destruct (Hcols _ _ _ Hin0) as (rs0' & c0' & Hrs0'' & _ & Hzz & _).
    assert (Hlens : forall name f key rs, In (name, f, key) ags -> results M keq T groups f key rs -> zlen rs = zlen groups /\ forall i r0 r, znth rs0 i = Some r0 -> znth rs i = Some r -> zlen (values_of r0) = zlen (values_of r)).
    { intros name f key rs Hx Hrs. apply F2_znth in Hrs. destruct Hrs as (Hz1 & Hp1). split; [lia|]. intros i r0 r H1 H2. pose proof (znth_some_range _ _ _ H1). destruct (znth groups i) as [rows|] eqn:Er; [|apply znth_none in Er; lia].
      destruct (Hp0 _ _ _ Er H1) as (u0 & (_ & _ & (_ & L0) & _) & E0). destruct (Hp1 _ _ _ Er H2) as (u1 & (_ & _ & (_ & L1) & _) & E1). apply (Hcnt name0 f0 key0 u0 name f key u1 r0 r Hin0 Hx); [lia|exact E0|exact E1]. }
    exists (repeats gs rs0). split; [|split].
    - rewrite repeats_len by lia. rewrite <- Hzz. destruct (Hlens _ _ _ rs0' Hin0 Hrs0'') as (Hz' & Hl'). rewrite !concat_len. f_equal. apply znth_ext; [unfold zlen in *; rewrite !map_length; lia|]. intros i Hir. rewrite !znth_map. unfold zlen in Hir. rewrite !map_length in Hir.
      destruct (znth rs0 i) as [r0|] eqn:E0; [|apply znth_none in E0; unfold zlen in *; lia]. destruct (znth rs0' i) as [r1|] eqn:E1; [|apply znth_none in E1; unfold zlen in *; lia]. cbn [option_map]. f_equal. apply (Hl' i r0 r1 E0 E1).
    - exists c0. split; assumption.
    - intros name f key Hx. destruct (Hcols _ _ _ Hx) as (rs & c & Hrs & Ec & Hz & Uc). exists (concat (map values_of rs)), c. split; [exact Hz|]. split; [exact Ec|]. split; [exact Uc|].
      intros i v x Hgi Hvi. destruct (Hlens _ _ _ rs Hx Hrs) as (Hz1 & Hl1). destruct (aligned gs rs0 rs ltac:(lia) ltac:(lia) Hl1 i v x Hgi Hvi) as (r & Hvr & Hxr). apply In_znth in Hvr. destruct Hvr as (j & Hj). apply znth_combine_inv in Hj. destruct Hj as (Hj1 & Hj2).
      apply F2_znth in Hrs. destruct Hrs as (_ & Hp1). pose proof (znth_some_range _ _ _ Hj1). destruct (znth groups j) as [rows|] eqn:Er; [|apply znth_none in Er; lia]. destruct (Hp1 _ _ _ Er Hj2) as (u & Hpu & Hfu). exists rows, u, r. split; [apply (HF _ _ _ Hj1 Er)|]. split; [exact Hpu|]. split; assumption.
  Qed.
End C108.
Print Assumptions C108_grouped.
Print Assumptions C108_whole.
Print Assumptions C108_scalars.
Print Assumptions C109_aligned_partial.

(* -------- examples -------- *)
Definition qveq (a b : sval bignum) : bool := match a, b with VNum (NI x), VNum (NI y) => x =? y | VOth x s, VOth y s' => (x =? y) && String.eqb s s' | _, _ => false end.
Definition exG : @table bignum string :=
  mkTable (mkDict ["g"; "a"]%string [("g", RStrings (vec ["x"; "y"; "x"])); ("a", RInts (vec [1; 2; 3]))]%string) 3.
Definition sum : rep bignum -> outcome (@tval bignum) := fun r => match r with RInts a => Ok (TScal (ni (fold_right Z.add 0 (elems a)))) | _ => Err end.
Definition same_vec : rep bignum -> outcome (@tval bignum) := fun r => Ok (TArr r).
Definition longer : rep bignum -> outcome (@tval bignum) := fun r => if zlen (elems (view r)) <=? 1 then Ok (TArr (RInts (vec []))) else Ok (TArr r).
Definition qry := tableQuery tM bigT (fun _ => true) seqb qveq.
Example C108_example :
  aggregates seqb (AFun sum) ["a"%string] [("a", sum, "a")]%string /\
  qry exG (AFun sum) (GKey "g"%string) = Ok (mkTable (mkDict ["g"; "a"]%string [("a", RInts (vec [4; 2])); ("g", RStrings (vec ["x"; "y"]))]%string) 2) /\
  qry exG (AFun same_vec) (GKey "g"%string) = Ok (mkTable (mkDict ["g"; "a"]%string [("a", RInts (vec [1; 3; 2])); ("g", RStrings (vec ["x"; "x"; "y"]))]%string) 3) /\
  qry exG (ADict (mkDict ["s"; "t"]%string [("s", Some sum); ("t", Some sum)]%string)) (GKey "g"%string) =
    Ok (mkTable (mkDict ["g"; "s"; "t"]%string [("s", RInts (vec [4; 2])); ("t", RInts (vec [4; 2])); ("g", RStrings (vec ["x"; "y"]))]%string) 2) /\
  qry exG (AFun sum) (GKey "h"%string) = Err.
Proof. split; [apply (ag_fun seqb sum ["a"%string])|]. split; [vm_compute; reflexivity|]. split; [vm_compute; reflexivity|]. split; vm_compute; reflexivity. Qed.
(* only the total numbers of rows are compared: the first function returns one value for
   each group, the second two for the group x and none for y.  The second row of the result
   has the group y, and 3, which is a value of the group x *)
Theorem C109_rows_refuted : exists W, qry exG (ADict (mkDict ["s"; "t"]%string [("s", Some sum); ("t", Some longer)]%string)) (GKey "g"%string) = Ok W /\
  cell seqb W 1 "g"%string = Some (ns "y") /\ cell seqb W 1 "t"%string = Some (ni 3) /\
  forall i, cell seqb exG i "g"%string = Some (ns "y") -> cell seqb exG i "a"%string <> Some (ni 3).
Proof.
  eexists. split; [vm_compute; reflexivity|]. split; [vm_compute; reflexivity|]. split; [vm_compute; reflexivity|].
  intros i H H'. unfold cell in *. cbn [exG tdict] in *. change (At seqb (tdict exG) "g"%string) with (Some (@RStrings bignum (vec ["x"; "y"; "x"]%string))) in H. change (At seqb (tdict exG) "a"%string) with (Some (@RInts bignum (vec [1; 2; 3]))) in H'.
  pose proof (znth_some_range _ _ _ H) as R. change (zlen (elems (view (@RStrings bignum (vec ["x"%string; "y"%string; "x"%string]))))) with 3 in R.
  assert (i = 0 \/ i = 1 \/ i = 2) as [->|[->| ->]] by lia; vm_compute in H, H'; congruence.
Qed.
Example C109_example : forall u, same_vec u = Ok (TArr u) /\ zlen (values_of (TArr u)) = zlen (elems (view u)).
Proof. intros u. split; reflexivity. Qed.
