(* P_Table6.v -- grouping and aggregation. *)
From Coq Require Import String.
From Verif Require Import Base M_Array S_Array P_Array M_Structural P_Transpose M_Number S_Number P_Number P_Tower M_Scalar P_Scalar M_Dict S_Dict P_Dict S_Operators M_Table S_Table P_Table P_Table2 P_Table3 P_Table4 P_Table5.
Open Scope Z_scope.

Section G.
  Context {P : Type} (veq : sval P -> sval P -> bool) (Hv : key_equality veq).
  Local Notation sv := (sval P).
  (* what the groups of a prefix l of the column are *)
  Definition ginv (l : list sv) (st : gmap sv (list Z) * list sv) : Prop :=
    first_order l (snd st) /\
    forall v, match mget veq (fst st) v with
              | Some rows => In v l /\ increasing rows /\ forall i, In i rows <-> znth l i = Some v
              | None => ~ In v l
              end.
  Lemma increasing_snoc (l : list Z) i : increasing l -> (forall j, In j l -> j < i) -> increasing (l ++ [i]).
  Proof.
    intros H Hl p q x y Hpq Hx Hy. pose proof (znth_some_range _ _ _ Hx) as Rx. pose proof (znth_some_range _ _ _ Hy) as Ry. rewrite zlen_app in Rx, Ry. change (zlen [i]) with 1 in Rx, Ry.
    rewrite znth_app_l in Hx by lia. destruct (Z.eq_dec q (zlen l)) as [->|Hne].
    - rewrite znth_app_r in Hy by lia. rewrite Z.sub_diag in Hy. injection Hy as <-. apply Hl. eapply znth_In. exact Hx.
    - rewrite znth_app_l in Hy by lia. apply (H p q x y Hpq Hx Hy).
  Qed.
  Lemma znth_snoc {A} (l : list A) (v : A) i x : znth (l ++ [v]) i = Some x <-> znth l i = Some x \/ i = zlen l /\ x = v.
  Proof.
    pose proof (zlen_nonneg l). split.
    - intros H'. pose proof (znth_some_range _ _ _ H') as R. rewrite zlen_app in R. change (zlen [v]) with 1 in R. destruct (Z.eq_dec i (zlen l)) as [->|Hne].
      + rewrite znth_app_r in H' by lia. rewrite Z.sub_diag in H'. injection H' as <-. right. auto.
      + rewrite znth_app_l in H' by lia. left. exact H'.
    - intros [H'|(-> & ->)]; [pose proof (znth_some_range _ _ _ H'); rewrite znth_app_l by lia; exact H'|]. rewrite znth_app_r by lia. rewrite Z.sub_diag. reflexivity.
  Qed.
  Lemma group_inv (l : list sv) st v : ginv l st -> ginv (l ++ [v]) (group_step veq st (zlen l, v)).
  Proof.
    destruct st as (m, gs). intros (Hf & Hm). cbn [fst snd] in *. unfold group_step.
    assert (Hold : forall w rows, mget veq m w = Some rows -> w <> v -> forall i, In i rows <-> znth (l ++ [v]) i = Some w).
    { intros w rows E Hne i. specialize (Hm w). rewrite E in Hm. destruct Hm as (_ & _ & Hm). rewrite Hm. rewrite znth_snoc. split; [auto|]. intros [H|(_ & H)]; [exact H|congruence]. }
    assert (Hnew : forall w, w <> v -> match mget veq m w with Some rows => In w (l ++ [v]) /\ increasing rows /\ forall i, In i rows <-> znth (l ++ [v]) i = Some w | None => ~ In w (l ++ [v]) end).
    { intros w Hne. specialize (Hm w). pose proof (Hold w) as Hold'. destruct (mget veq m w) as [rows'|].
      - split; [apply in_or_app; left; apply Hm|]. split; [apply Hm|]. apply Hold'; [reflexivity|exact Hne].
      - intros Hin. apply in_app_iff in Hin. destruct Hin as [Hin|[Hin|[]]]; [apply Hm; exact Hin|congruence]. }
    pose proof (Hm v) as Hmv. destruct (mget veq m v) as [rows|] eqn:Ev; unfold ginv; cbn [fst snd].
    - split; [apply fo_old; [exact Hf|apply Hmv]|]. intros w. rewrite (mget_mset veq Hv). destruct (veq v w) eqn:Ew.
      + apply Hv in Ew. subst w. destruct Hmv as (_ & Hi & Hmv). split; [apply in_or_app; right; left; reflexivity|]. split.
        * apply increasing_snoc; [exact Hi|]. intros j Hj. apply Hmv in Hj. apply znth_some_range in Hj. lia.
        * intros i. rewrite in_app_iff, znth_snoc. cbn [In]. rewrite Hmv. intuition.
      + apply Hnew. intros ->. rewrite (keq_refl veq Hv) in Ew. discriminate.
    - split; [apply fo_new; assumption|]. intros w. rewrite (mget_mset veq Hv). destruct (veq v w) eqn:Ew.
      + apply Hv in Ew. subst w. split; [apply in_or_app; right; left; reflexivity|]. split.
        * intros p q x y Hpq Hx Hy. pose proof (znth_some_range _ _ _ Hx). pose proof (znth_some_range _ _ _ Hy). unfold zlen in *. cbn in *. lia.
        * intros i. rewrite znth_snoc. cbn [In]. split; [intros [<-|[]]; right; auto|]. intros [H|(-> & _)]; [apply znth_In in H; contradiction|left; reflexivity].
      + apply Hnew. intros ->. rewrite (keq_refl veq Hv) in Ew. discriminate.
  Qed.
  Lemma combine_app {A B} (a a' : list A) (b b' : list B) : length a = length b -> combine (a ++ a') (b ++ b') = combine a b ++ combine a' b'.
  Proof. revert b. induction a as [|x a IH]; intros [|y b] H; cbn in *; try discriminate; [reflexivity|]. f_equal. apply IH. lia. Qed.
  Lemma zseq_snoc n : 0 <= n -> zseq (n + 1) = zseq n ++ [n].
  Proof.
    intros H. apply znth_ext.
    - rewrite zlen_app, !zlen_zseq. change (zlen [n]) with 1. lia.
    - intros i Hi. rewrite zlen_zseq in Hi. rewrite znth_zseq by lia. symmetry. apply znth_snoc. rewrite zlen_zseq. destruct (Z.eq_dec i n) as [->|Hne]; [right; split; [lia|reflexivity]|left; apply znth_zseq; lia].
  Qed.
  Lemma groupings_ok (col : list sv) : ginv col (groupings veq col).
  Proof.
    induction col as [|v l IH] using rev_ind.
    - unfold groupings. cbn. split; [constructor|]. intros v. cbn. tauto.
    - unfold groupings in *. rewrite zlen_app. change (zlen [v]) with 1. pose proof (zlen_nonneg l). rewrite zseq_snoc by lia. rewrite combine_app by (pose proof (zlen_zseq (zlen l)); unfold zlen in *; lia).
      cbn [combine]. rewrite fold_left_app. cbn [fold_left]. apply group_inv. exact IH.
  Qed.
End G.

Section Q.
  Context {P : Type} (M : methods P) (t : tower P) (hu : ntype -> bool) {K : Type} (keq : K -> K -> bool) (Hk : key_equality keq).
  Local Notation sv := (sval P).
  Local Notation table := (@table P K).
  Local Notation agfun := (rep P -> outcome (@tval P)).
  Local Notation loop := (query_loop M t hu keq).
  Lemma aggregate_spec (T : table) key c groups f vss : good M keq T -> At keq (tdict T) key = Some c -> Forall (Forall (fun i => 0 <= i < Rows T)) groups ->
    aggregate M c f groups = Ok vss -> exists rs, results M keq T groups f key rs /\ vss = map values_of rs.
  Proof.
    intros G E Hr Ha. apply mapM_Forall2 in Ha. destruct (proj2 (proj2 G) key c E) as (U & R & V). revert vss Ha. induction Hr as [|rows groups Hr _ IH]; intros vss Ha; inversion Ha as [|? vs ? vss' Hx Hy]; subst.
    - exists []. split; [constructor|reflexivity].
    - destruct (IH _ Hy) as (rs & F & ->). destruct (subcolumn_ok M c (Rows T) rows U R V Hr) as (u & Eu & U' & R' & V' & _ & Hc). rewrite Eu in Hx. cbn [obind] in Hx. destruct (f u) as [r| |] eqn:Ef; try discriminate. injection Hx as <-.
      exists (r :: rs). split; [|reflexivity]. constructor; [|exact F]. exists u. split; [|exact Ef]. split; [exact U'|]. split; [exact R'|]. split; [exact V'|]. intros i j Hj. rewrite (Hc i j Hj). unfold cell. rewrite E. reflexivity.
  Qed.
  Lemma aggregate_total (T : table) key c groups (f : agfun) : good M keq T -> At keq (tdict T) key = Some c -> Forall (Forall (fun i => 0 <= i < Rows T)) groups ->
    (forall rows u, In rows groups -> part M keq T rows key u -> exists r, f u = Ok r) -> exists vss, aggregate M c f groups = Ok vss.
  Proof.
    intros G E Hr Hf. destruct (proj2 (proj2 G) key c E) as (U & R & V). induction Hr as [|rows groups Hr _ IH]; [exists []; reflexivity|].
    destruct IH as (vss & Ev); [intros rows' u Hi; apply Hf; right; exact Hi|]. destruct (subcolumn_ok M c (Rows T) rows U R V Hr) as (u & Eu & U' & R' & V' & _ & Hc).
    destruct (Hf rows u (or_introl eq_refl)) as (r & Er).
    { split; [exact U'|]. split; [exact R'|]. split; [exact V'|]. intros i j Hj. rewrite (Hc i j Hj). unfold cell. rewrite E. reflexivity. }
    exists (tval_values r :: vss). unfold aggregate in *. cbn [mapM]. rewrite Eu. cbn [obind]. rewrite Er. cbn [obind]. rewrite Ev. reflexivity.
  Qed.
  (* one step of the loop *)
  Definition col_result (T : table) (groups : list (list Z)) (f : agfun) (key : K) (vss : list (list sv)) (u : rep P) : Prop :=
    exists c, At keq (tdict T) key = Some c /\ aggregate M c f groups = Ok vss /\ Unify M t hu (mixed (concat vss)) true = Ok (u, true) /\ zlen (dims (view u)) = 1.
  Lemma loop_step (T : table) groups name f key ags first d res : good M keq T -> In key (keysOf (tdict T)) ->
    loop T groups ((name, f, key) :: ags) first d = Ok res ->
    exists vss u n, col_result T groups f key vss u /\ dims (view u) = [n] /\
      let first' := match first with Some x => x | None => (n, map zlen vss) end in
      n = fst first' /\ loop T groups ags (Some first') (mkDict (keysOf d ++ [name]) (mset keq (mapOf d) name u)) = Ok res.
  Proof.
    intros G Hin E. destruct (column_ok M keq T key G Hin) as (c & Ec & Ea & U & _). cbn [query_loop] in E. rewrite Ec in E. cbn [obind] in E. unfold uniform at 1 in E. rewrite U in E. cbn [obind] in E.
    destruct (aggregate M c f groups) as [vss| |] eqn:Ev; try discriminate. cbn [obind] in E. destruct (Unify M t hu (mixed (concat vss)) true) as [(u, ok)| |] eqn:Eu; try discriminate. cbn [obind fst snd] in E. destruct ok; [|discriminate].
    unfold shape in E. destruct (dims (view u)) as [|n [|? ?]] eqn:Ed; try discriminate. exists vss, u, n. split; [exists c; rewrite Ed; split; [exact Ea|]; split; [exact Ev|]; split; [exact Eu|reflexivity]|]. split; [exact Ed|]. cbv zeta. destruct (Z.eqb_spec n (fst match first with Some x => x | None => (n, map zlen vss) end)) as [En|]; [|discriminate]. split; [exact En|exact E].
  Qed.
  Definition nm (x : K * agfun * K) : K := fst (fst x).
  Lemma loop_inv (T : table) groups ags : forall first d d' first', good M keq T -> (forall x, In x ags -> In (snd x) (keysOf (tdict T))) -> proper keq d ->
    NoDup (map nm ags) -> (forall x, In x ags -> ~ In (nm x) (keysOf d)) ->
    loop T groups ags first d = Ok (d', first') ->
    proper keq d' /\ keysOf d' = keysOf d ++ map nm ags /\ (forall k, ~ In k (map nm ags) -> At keq d' k = At keq d k) /\
    (forall name f key, In (name, f, key) ags -> exists vss u n counts, col_result T groups f key vss u /\ At keq d' name = Some u /\ first' = Some (n, counts) /\ dims (view u) = [n]) /\
    match ags with [] => first' = first | (_, f, key) :: _ => match first with Some _ => first' = first | None => exists vss u n, col_result T groups f key vss u /\ first' = Some (n, map zlen vss) end end.
  Proof.
    induction ags as [|((name, f), key) ags IH]; intros first d d' first' G Hin Hp Hn Hd E.
    - cbn in E. injection E as <- <-. split; [exact Hp|]. split; [symmetry; apply app_nil_r|]. split; [reflexivity|]. split; [intros ? ? ? []|reflexivity].
    - cbn [map nm fst] in *. inversion Hn as [|? ? Hn1 Hn2]; subst. destruct (loop_step T groups name f key ags first d _ G (Hin _ (or_introl eq_refl)) E) as (vss & u & n & Hc & Hdu & Hf & E').
      set (first1 := match first with Some x => x | None => (n, map zlen vss) end) in *. assert (Hname : ~ In name (keysOf d)) by (apply (Hd _ (or_introl eq_refl))).
      assert (Ex : mkDict (keysOf d ++ [name]) (mset keq (mapOf d) name u) = DSet keq d name u).
      { unfold DSet. destruct (mget keq (mapOf d) name) as [r|] eqn:Er; [|reflexivity]. exfalso. apply Hname. apply Hp. exists r. exact Er. }
      rewrite Ex in E'. assert (Ek : keysOf (DSet keq d name u) = keysOf d ++ [name]) by (apply keys_DSet_new; assumption).
      destruct (IH (Some first1) (DSet keq d name u) d' first' G) as (P1 & P2 & P3 & P4 & P5); [intros x Hx; apply Hin; right; exact Hx|apply (proper_DSet keq Hk); exact Hp|exact Hn2| |exact E'|].
      { intros x Hx. rewrite Ek, in_app_iff. intros [Hi|[Hi|[]]]; [apply (Hd x (or_intror Hx) Hi)|]. apply Hn1. rewrite Hi. apply (in_map nm). exact Hx. }
      assert (Hfirst : first' = Some first1) by (destruct ags as [|((? & ?) & ?) ?]; exact P5).
      split; [exact P1|]. split; [rewrite P2, Ek, <- app_assoc; reflexivity|]. split; [|split].
      + intros k Hk'. rewrite P3 by (intros Hi; apply Hk'; right; exact Hi). apply (At_DSet_other keq Hk). intros ->. apply Hk'. left. reflexivity.
      + intros name' f' key' [Hx|Hx].
        * injection Hx as <- <- <-. exists vss, u, n, (snd first1). split; [exact Hc|]. split; [rewrite P3 by exact Hn1; apply (At_DSet_same keq Hk)|]. split; [rewrite Hfirst, Hf; destruct first1; reflexivity|exact Hdu].
        * apply (P4 name' f' key' Hx).
      + rewrite Hfirst. unfold first1. destruct first; [reflexivity|]. exists vss, u, n. split; [exact Hc|reflexivity].
  Qed.
  Lemma loop_total (T : table) groups ags n counts : forall first d, good M keq T -> (forall x, In x ags -> In (snd x) (keysOf (tdict T))) ->
    (forall name f key, In (name, f, key) ags -> exists vss u, col_result T groups f key vss u /\ dims (view u) = [n] /\ map zlen vss = counts) -> (first = None \/ first = Some (n, counts)) ->
    exists res, loop T groups ags first d = Ok res.
  Proof.
    induction ags as [|((name, f), key) ags IH]; intros first d G Hin Hc Hf; [eexists; reflexivity|].
    destruct (Hc name f key (or_introl eq_refl)) as (vss & u & (c & Ea & Ev & Eu & _) & Hd & Hz). destruct (column_ok M keq T key G (Hin _ (or_introl eq_refl))) as (c' & Ec & Ea' & U & _).
    assert (c' = c) by congruence. subst c'. cbn [query_loop]. rewrite Ec. cbn [obind]. unfold uniform at 1. rewrite U. cbn [obind]. rewrite Ev. cbn [obind]. rewrite Eu. cbn [obind fst snd]. unfold shape. rewrite Hd.
    assert (E : match first with Some x => x | None => (n, map zlen vss) end = (n, counts)) by (destruct Hf as [->| ->]; [rewrite Hz|]; reflexivity). rewrite E. cbn [fst]. rewrite Z.eqb_refl.
    apply IH; [exact G|intros x Hx; apply Hin; right; exact Hx|intros name' f' key' Hx; apply (Hc name' f' key'); right; exact Hx|right; reflexivity].
  Qed.

  Lemma aggregations_ok (a : @agg P K) ks ags : aggregates keq a ks ags -> aggregations keq ks a = Ok ags /\ forall x, In x ags -> In (snd x) ks.
  Proof.
    intros H. destruct H as [f ks|d ks fs Hz Hf Ha|d k fs H1 Hf Ha].
    - split; [reflexivity|]. intros x Hx. apply in_map_iff in Hx. destruct Hx as (k & <- & Hi). exact Hi.
    - assert (G : forall names (fs' : list agfun) (ks' : list K), zlen names = zlen ks' -> zlen fs' = zlen ks' -> (forall i n f, znth names i = Some n -> znth fs' i = Some f -> At keq d n = Some (Some f)) ->
        mapM (fun nk : K * K => match At keq d (fst nk) with Some (Some f) => Ok (fst nk, f, snd nk) | _ => Err end) (combine names ks') = Ok (combine (combine names fs') ks')).
      { induction names as [|n names IH]; intros [|f fs'] [|k ks'] E1 E2 H; try (cbn in E1; discriminate); try reflexivity; try (unfold zlen in *; cbn in *; lia).
        cbn [combine mapM fst snd]. rewrite (H 0 n f eq_refl eq_refl). cbn [obind]. rewrite (IH fs' ks'); [reflexivity|unfold zlen in *; cbn in *; lia|unfold zlen in *; cbn in *; lia|].
        intros i n' f' Hn Hf'. apply (H (i + 1)); pose proof (znth_some_range _ _ _ Hn); rewrite znth_cons_pos by lia; replace (i + 1 - 1) with i by lia; assumption. }
      split.
      + unfold aggregations. destruct (Z.eqb_spec (zlen (keysOf d)) 1); destruct (Z.ltb_spec 1 (zlen ks)); try lia; cbn [andb]; (destruct (Z.eqb_spec (zlen ks) 1); destruct (Z.ltb_spec 1 (zlen (keysOf d))); try lia; cbn [andb]);
          rewrite Hz, Z.eqb_refl; cbn [obind]; apply G; assumption.
      + intros (nf, k) Hx. cbn [snd]. apply in_combine_r in Hx. exact Hx.
    - split.
      + unfold aggregations. change (zlen [k]) with 1. change (1 =? 1) with true. destruct (Z.eqb_spec (zlen (keysOf d)) 1) as [E|_]; [lia|]. cbn [andb]. destruct (Z.ltb_spec 1 (zlen (keysOf d))); [|lia]. cbn [obind zat znth].
        change (zat [k] 0) with (Ok k). cbn [obind]. clear H1 H. revert fs Hf Ha. generalize (keysOf d) as names. induction names as [|n names IH]; intros [|f fs] Hf Ha; try (unfold zlen in *; cbn in *; lia); [reflexivity|].
        cbn [map combine mapM fst snd]. rewrite (Ha 0 n f eq_refl eq_refl). cbn [obind]. rewrite (IH fs); [reflexivity|unfold zlen in *; cbn in *; lia|].
        intros i n' f' Hn Hf'. apply (Ha (i + 1)); pose proof (znth_some_range _ _ _ Hn); rewrite znth_cons_pos by lia; replace (i + 1 - 1) with i by lia; assumption.
      + intros x Hx. apply in_map_iff in Hx. destruct Hx as (y & <- & _). left. reflexivity.
  Qed.
End Q.
