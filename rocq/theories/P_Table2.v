(* P_Table2.v -- selection of rows and columns. *)
From Coq Require Import String.
From Verif Require Import Base M_Array S_Array P_Array M_Structural M_Number S_Number P_Number P_Tower M_Scalar P_Scalar M_Dict S_Dict P_Dict S_Operators P_ScalarArr M_Search P_Search M_Table S_Table P_Table.
Open Scope Z_scope.

Lemma increasing_unique l1 : forall l2, increasing l1 -> increasing l2 -> (forall i, In i l1 <-> In i l2) -> l1 = l2.
Proof.
  induction l1 as [|x l1 IH]; intros l2 H1 H2 H.
  - destruct l2 as [|y l2]; [reflexivity|]. exfalso. apply (proj2 (H y)). left. reflexivity.
  - destruct l2 as [|y l2]; [exfalso; apply (proj1 (H x)); left; reflexivity|].
    apply increasing_cons in H1, H2. destruct H1 as (H1 & L1), H2 as (H2 & L2).
    assert (x = y).
    { destruct (proj1 (H x) (or_introl eq_refl)) as [E|E]; [congruence|]. destruct (proj2 (H y) (or_introl eq_refl)) as [E'|E']; [congruence|].
      specialize (L1 _ E'). specialize (L2 _ E). lia. }
    subst y. f_equal. apply IH; try assumption. intros i. split; intros Hi.
    + destruct (proj1 (H i) (or_intror Hi)) as [->|]; [|assumption]. specialize (L1 _ Hi). lia.
    + destruct (proj2 (H i) (or_intror Hi)) as [->|]; [|assumption]. specialize (L2 _ Hi). lia.
Qed.

Lemma F2_znth {A B} (R : A -> B -> Prop) l1 l2 : Forall2 R l1 l2 <-> zlen l1 = zlen l2 /\ forall i x y, znth l1 i = Some x -> znth l2 i = Some y -> R x y.
Proof.
  split; [intros H; split; [eapply Forall2_zlen; exact H|apply Forall2_znth; exact H]|]. revert l2. induction l1 as [|a l1 IH]; intros l2 (Hl & H).
  - destruct l2; [constructor|]. rewrite zlen_cons in Hl. pose proof (zlen_nonneg l2). change (zlen (@nil A)) with 0 in Hl. lia.
  - destruct l2 as [|b l2]; [rewrite zlen_cons in Hl; pose proof (zlen_nonneg l1); change (zlen (@nil B)) with 0 in Hl; lia|].
    constructor; [apply (H 0); reflexivity|]. apply IH. rewrite !zlen_cons in Hl. split; [lia|].
    intros i x y Hx Hy. pose proof (znth_some_range _ _ _ Hx). apply (H (i + 1)); rewrite znth_cons_pos by lia; replace (i + 1 - 1) with i by lia; assumption.
Qed.

Section P.
  Context {P : Type} (M : methods P) (t : tower P) (hu : ntype -> bool) {K : Type} (keq : K -> K -> bool) (Hk : key_equality keq) (skey : string -> K) (origin : Z).
  Local Notation table := (@table P K).
  Local Notation goodT := (good M keq).

  Lemma find_cols_ok cols ks : NoDup cols -> (forall k, In k ks -> In k cols) ->
    exists ci, find_cols keq cols ks = Ok ci /\ Forall2 (fun i k => znth cols i = Some k) ci ks.
  Proof.
    intros Hn. induction ks as [|k ks IH]; intros H; [exists []; split; [reflexivity|constructor]|].
    destruct IH as (ci & E & F); [intros k' Hk'; apply H; right; exact Hk'|].
    destruct (In_znth cols k (H k (or_introl eq_refl))) as (i & Hi).
    exists (i :: ci). unfold find_cols, colmap in *. cbn [mapM]. rewrite keyindex_imap by assumption.
    rewrite keyindex_imap in E by assumption.
    pose proof (proj2 (imap_get keq Hk 0 cols k i Hn) Hi) as Ei. rewrite Z.add_0_r in Ei. rewrite Ei. cbn [obind]. rewrite E. cbn [obind].
    split; [reflexivity|]. constructor; assumption.
  Qed.
  Lemma find_cols_err cols ks k : NoDup cols -> In k ks -> ~ In k cols -> find_cols keq cols ks = Err.
  Proof.
    intros Hn Hi Hk'. unfold find_cols, colmap. rewrite keyindex_imap by assumption.
    induction ks as [|k0 ks IH]; [contradiction|]. cbn [mapM]. destruct (mget keq (imap 0 cols) k0) as [i|] eqn:E; [|reflexivity]. cbn [obind].
    destruct Hi as [->|Hi].
    - exfalso. apply (mget_Some_In keq Hk) in E. apply (in_map fst) in E. rewrite imap_fst in E. cbn in E. contradiction.
    - rewrite (IH Hi). reflexivity.
  Qed.
  Lemma rows_range (T : table) rs l : 0 <= Rows T -> rows_meant origin T rs l -> Forall (fun i => 0 <= i < Rows T) l.
  Proof.
    intros H0 H. inversion H as [E1 E2|i Hi E1 E2|l' Hl E1 E2|f bs l' Hf Hb Hz Hm Hinc E1 E2]; subst.
    - rewrite Forall_forall. intros i Hi. apply In_zseq in Hi. lia.
    - constructor; [exact Hi|constructor].
    - exact Hl.
    - rewrite Forall_forall. intros i Hi. apply Hm in Hi. apply znth_some_range in Hi. lia.
  Qed.
  Lemma rows_ok (T : table) rs l : 0 <= Rows T -> rows_meant origin T rs l -> select_rows origin T rs = Ok (map (fun i => i + origin) l).
  Proof.
    intros H0 H. inversion H as [E1 E2|i Hi E1 E2|l' Hl E1 E2|f bs l' Hf Hb Hz Hm Hinc E1 E2]; subst; try reflexivity.
    cbn [select_rows]. rewrite Hf. cbn [obind]. destruct bs as [|b bs]; [congruence|]. f_equal.
    apply increasing_unique.
    - apply where_loop_inc.
    - intros p q x y Hpq Hx Hy. rewrite znth_map in Hx, Hy. destruct (znth l p) as [x'|] eqn:Ex; [|discriminate]. destruct (znth l q) as [y'|] eqn:Ey; [|discriminate].
      cbn in Hx, Hy. injection Hx as <-. injection Hy as <-. specialize (Hinc p q x' y' Hpq Ex Ey). lia.
    - intros i. rewrite where_loop_In, in_map_iff. split.
      + intros (q & Hq & ->). exists q. split; [lia|]. apply Hm. exact Hq.
      + intros (q & <- & Hq). exists q. split; [apply Hm; exact Hq|lia].
  Qed.
  Lemma check_ok n l : Forall (fun i => 0 <= i < n) l ->
    mapM (fun k => let m := k - origin in if (m <? 0) || (n <=? m) then Err else Ok m) (map (fun i => i + origin) l) = Ok l.
  Proof.
    intros H. rewrite mapM_map. transitivity (Ok (map (fun i : Z => i) l)); [|rewrite map_id; reflexivity]. apply mapM_ok_map. intros i Hi. rewrite Forall_forall in H. specialize (H i Hi).
    cbv zeta. replace (i + origin - origin) with i by lia. destruct (Z.ltb_spec i 0); [lia|]. destruct (Z.leb_spec n i); [lia|]. reflexivity.
  Qed.
  Lemma all_cols_ok (cols : list K) : Forall2 (fun i k => znth cols i = Some k) (all_cols cols) cols.
  Proof.
    apply F2_znth. unfold all_cols. rewrite zlen_zseq. pose proof (zlen_nonneg cols). split; [lia|].
    intros i x y Hx Hy. pose proof (znth_some_range _ _ _ Hy). rewrite znth_zseq in Hx by lia. injection Hx as <-. exact Hy.
  Qed.
  Lemma selection_ok (T : table) rs cs l ks : goodT T -> index_means skey origin T rs cs l ks -> (forall k, In k ks -> In k (keysOf (tdict T))) ->
    Forall (fun i => 0 <= i < Rows T) l /\
    exists ci, tableSelection keq skey origin T rs cs = Ok (l, ci) /\ Forall2 (fun i k => znth (keysOf (tdict T)) i = Some k) ci ks.
  Proof.
    intros ((Hn & _) & H0 & _) Hi Hin. unfold tableSelection, select_cols.
    assert (Hall : Forall (fun i => 0 <= i < Rows T) (zseq (Rows T))) by (apply (rows_range T RowAll); [exact H0|constructor]).
    destruct Hi as [rs l N1 N2 Hr|s|ss|rs l Hr|rs l k Hr|rs l ks Hr].
    - split; [eapply rows_range; eassumption|]. replace (as_strings rs) with (@None (list string)) by (destruct Hr as [|i|[|j l]|]; first [reflexivity | (exfalso; apply N1; reflexivity) | (exfalso; apply N2; reflexivity)]). cbn [obind fst snd].
      rewrite (rows_ok T rs l H0 Hr). cbn [obind]. rewrite check_ok by (eapply rows_range; eassumption). cbn [obind]. eexists. split; [reflexivity|apply all_cols_ok].
    - split; [exact Hall|]. cbn [as_strings map]. destruct (find_cols_ok _ _ Hn Hin) as (ci & E & F). rewrite E. cbn [obind fst snd select_rows].
      rewrite check_ok by exact Hall. eexists. split; [reflexivity|exact F].
    - split; [exact Hall|]. cbn [as_strings]. destruct (find_cols_ok _ _ Hn Hin) as (ci & E & F). rewrite E. cbn [obind fst snd select_rows].
      rewrite check_ok by exact Hall. eexists. split; [reflexivity|exact F].
    - split; [eapply rows_range; eassumption|]. cbn [obind fst snd]. rewrite (rows_ok T rs l H0 Hr). cbn [obind]. rewrite check_ok by (eapply rows_range; eassumption). cbn [obind]. eexists. split; [reflexivity|apply all_cols_ok].
    - split; [eapply rows_range; eassumption|]. destruct (find_cols_ok _ _ Hn Hin) as (ci & E & F). rewrite E. cbn [obind fst snd]. rewrite (rows_ok T rs l H0 Hr). cbn [obind]. rewrite check_ok by (eapply rows_range; eassumption). cbn [obind]. eexists. split; [reflexivity|exact F].
    - split; [eapply rows_range; eassumption|]. destruct (find_cols_ok _ _ Hn Hin) as (ci & E & F). rewrite E. cbn [obind fst snd]. rewrite (rows_ok T rs l H0 Hr). cbn [obind]. rewrite check_ok by (eapply rows_range; eassumption). cbn [obind]. eexists. split; [reflexivity|exact F].
  Qed.

  Lemma column_ok (T : table) k : goodT T -> In k (keysOf (tdict T)) -> exists r, column keq (tdict T) k = Ok r /\ At keq (tdict T) k = Some r /\ isUniform r = true /\ rep_ok M r /\ vector r (Rows T).
  Proof.
    intros ((_ & Hp) & _ & Hg) Hin. apply Hp in Hin. destruct Hin as (r & E). exists r. unfold column. rewrite E. split; [reflexivity|]. split; [reflexivity|]. apply (Hg _ _ E).
  Qed.
  Lemma subcolumn_ok r n rows : isUniform r = true -> rep_ok M r -> vector r n -> Forall (fun i => 0 <= i < n) rows ->
    exists u, subcolumn M r rows = Ok u /\ isUniform u = true /\ rep_ok M u /\ vector u (zlen rows) /\ same_rep u r = true /\
      forall i j, znth rows i = Some j -> znth (elems (view u)) i = znth (elems (view r)) j.
  Proof.
    intros Hu Hr (Hd & Hz) Hf. unfold subcolumn, uniform. rewrite Hu. cbn [obind].
    assert (Hm : exists vs, mapM (zat (vals r)) rows = Ok vs /\ Forall2 (fun j v => znth (vals r) j = Some v) rows vs).
    { clear - Hf Hz. unfold vals. induction Hf as [|j rows Hj Hf IH]; [exists []; split; [reflexivity|constructor]|]. destruct IH as (vs & E & F).
      destruct (znth (elems (view r)) j) as [v|] eqn:Ev; [|apply znth_none in Ev; lia]. exists (v :: vs). cbn [mapM]. rewrite (proj2 (zat_ok _ _ _) Ev). cbn [obind]. rewrite E. split; [reflexivity|constructor; assumption]. }
    destruct Hm as (vs & E & F). rewrite E. cbn [obind].
    destruct (build_ok M r vs Hu) as (u & Eb & V & Uu & Ru & Su).
    { intros v Hv. clear E. assert (Hin : In v (vals r)). { apply In_znth in Hv. destruct Hv as (i & Hi). apply F2_znth in F. destruct F as (Hl & F). pose proof (znth_some_range _ _ _ Hi).
        destruct (znth rows i) as [j|] eqn:Ej; [|apply znth_none in Ej; lia]. specialize (F _ _ _ Ej Hi). eapply znth_In. exact F. }
      apply ctype_In; assumption. }
    exists u. rewrite Eb. split; [reflexivity|]. split; [exact Uu|]. split; [exact Ru|]. unfold vector. rewrite V. cbn [dims elems].
    apply F2_znth in F. destruct F as (Hl & F). rewrite Hl. split; [split; reflexivity|]. split; [exact Su|].
    intros i j Hij. pose proof (znth_some_range _ _ _ Hij). destruct (znth vs i) as [v|] eqn:Ev; [|apply znth_none in Ev; lia]. symmetry. apply (F _ _ _ Hij Ev).
  Qed.
  Lemma subtable_ok (T : table) rows ci ks : goodT T -> Forall (fun i => 0 <= i < Rows T) rows -> Forall2 (fun i k => znth (keysOf (tdict T)) i = Some k) ci ks -> NoDup ks ->
    exists d, subtable M keq T rows ci = Ok d /\ goodT (mkTable d (zlen rows)) /\ keysOf d = ks /\
      forall i j k, znth rows i = Some j -> In k ks -> cell keq (mkTable d (zlen rows)) i k = cell keq T j k.
  Proof.
    intros Hg Hrows Hci Hn.
    assert (Hm : exists kvs, mapM (fun i => let* k := zat (keysOf (tdict T)) i in let* c := column keq (tdict T) k in let* u := subcolumn M c rows in Ok (k, u)) ci = Ok kvs /\ map fst kvs = ks /\
      forall k u, In (k, u) kvs -> isUniform u = true /\ rep_ok M u /\ vector u (zlen rows) /\ exists r, At keq (tdict T) k = Some r /\ forall i j, znth rows i = Some j -> znth (elems (view u)) i = znth (elems (view r)) j).
    { clear Hn. induction Hci as [|i k ci ks Hik Hci IH]; [exists []; split; [reflexivity|]; split; [reflexivity|]; intros ? ? []|].
      destruct IH as (kvs & E & Em & H). destruct (column_ok T k Hg) as (r & Ec & Ea & Hu & Hr & Hv); [eapply znth_In; exact Hik|].
      destruct (subcolumn_ok r (Rows T) rows Hu Hr Hv Hrows) as (u & Es & U1 & U2 & U3 & _ & U4).
      exists ((k, u) :: kvs). cbn [mapM]. rewrite (proj2 (zat_ok _ _ _) Hik). cbn [obind]. rewrite Ec. cbn [obind]. rewrite Es. cbn [obind]. rewrite E. cbn [obind].
      split; [reflexivity|]. split; [cbn [map fst]; congruence|]. intros k' u' [E'|Hin]; [|apply H; exact Hin]. injection E' as <- <-.
      split; [exact U1|]. split; [exact U2|]. split; [exact U3|]. exists r. split; [exact Ea|exact U4]. }
    destruct Hm as (kvs & E & <- & H). exists (ofpairs keq kvs). unfold subtable. rewrite E. split; [reflexivity|].
    split; [|split; [reflexivity|]].
    - split; [apply ofpairs_proper; assumption|]. split; [apply zlen_nonneg|]. intros k u Hu. cbn [tdict Rows] in *. apply (ofpairs_At keq Hk) in Hu; [|exact Hn]. destruct (H _ _ Hu) as (A & B & C & _). split; [exact A|]. split; assumption.
    - intros i j k Hij Hin. unfold cell. cbn [tdict]. apply in_map_iff in Hin. destruct Hin as ((k', u) & <- & Hin). cbn [fst].
      rewrite (proj2 (ofpairs_At keq Hk kvs k' u Hn) Hin). destruct (H _ _ Hin) as (_ & _ & _ & r & Ea & Hc). rewrite Ea. apply Hc. exact Hij.
  Qed.
End P.
