(* Prop_Table3.v -- catenation of tables (C106) and what it does not check (C107). *)
From Coq Require Import String.
From Verif Require Import Base M_Array S_Array P_Array M_Structural P_Comma P_Transpose M_Number S_Number P_Number P_Tower M_Scalar P_Scalar M_Dict S_Dict P_Dict Prop_Dict S_Operators M_Table S_Table P_Table P_Table2 P_Table3 P_Table4 P_Table5 Prop_Table.
Open Scope Z_scope.

Section C106.
  Context {P : Type} (M : methods P) (t : tower P) (hu : ntype -> bool) {K : Type} (keq : K -> K -> bool) (Hk : key_equality keq) (origin : Z).
  Local Notation sv := (sval P).
  Local Notation table := (@table P K).
  Local Notation cat := (catTables M t hu keq origin).
  Local Notation catcol := (cat_columns M t hu origin).

  Lemma zlen0 {A} (l : list A) : zlen l = 0 -> l = [].
  Proof. destruct l as [|x l]; [reflexivity|]. rewrite zlen_cons. pose proof (zlen_nonneg l). lia. Qed.
  Lemma mapM_nopanic {A B} (h : A -> outcome B) xs : (forall y, In y xs -> h y <> Panic) -> mapM h xs <> Panic.
  Proof.
    induction xs as [|y xs IH]; intros H; [discriminate|]. cbn [mapM]. pose proof (H y (or_introl eq_refl)). destruct (h y); [|discriminate|congruence]. cbn [obind].
    specialize (IH (fun z Hz => H z (or_intror Hz))). destruct (mapM h xs); [discriminate|discriminate|congruence].
  Qed.
  Lemma vector_view (r : rep P) n : vector r n -> view r = vec (elems (view r)).
  Proof. intros (H1 & H2). destruct (view r) as [d e]. cbn in *. unfold vec. congruence. Qed.
  Lemma catcol_ok (l r : rep P) n m : rep_ok M l -> rep_ok M r -> vector l n -> vector r m -> (n = 0 -> isUniform r = true) -> (m = 0 -> isUniform l = true) ->
    (0 < n -> 0 < m -> one_type M (elems (view l) ++ elems (view r)) /\ forall x, In x (elems (view l) ++ elems (view r)) -> plain M t hu x) ->
    exists c, catcol l r = Ok c /\ fitting M (n + m) c /\ elems (view c) = elems (view l) ++ elems (view r).
  Proof.
    intros Rl Rr Vl Vr Ul Ur H. unfold cat_columns, vals. pose proof Vl as (Dl & Zl). pose proof Vr as (Dr & Zr).
    pose proof (zlen_nonneg (elems (view l))) as Nl. pose proof (zlen_nonneg (elems (view r))) as Nr.
    destruct (Z.eqb_spec (zlen (elems (view l))) 0) as [El|El].
    { assert (E : elems (view l) = []) by (apply zlen0; exact El). exists r. split; [reflexivity|]. replace (n + m) with m by lia. split; [split; [apply Ul; lia|split; assumption]|rewrite E; reflexivity]. }
    destruct (Z.eqb_spec (zlen (elems (view r))) 0) as [Er|Er].
    { assert (E : elems (view r) = []) by (apply zlen0; exact Er). exists l. split; [reflexivity|]. replace (n + m) with n by lia. split; [split; [apply Ur; lia|split; assumption]|rewrite E, app_nil_r; reflexivity]. }
    rewrite (vector_view l n Vl), (vector_view r m Vr). rewrite catenate_vec. cbn [obind asArr]. unfold vec at 1.
    destruct H as (H1 & H2); [lia|lia|]. cbn [vec elems] in *.
    destruct (unify_one_type M t hu (elems (view l) ++ elems (view r)) [zlen (elems (view l) ++ elems (view r))] false H1 (wf_vec _)) as (c & Ec & V & U & R); [|exact H2|].
    { intros E. apply app_eq_nil in E. destruct E as (E & _). rewrite E in El. apply El. reflexivity. }
    rewrite Ec. cbn [obind fst]. exists c. split; [reflexivity|]. rewrite V. cbn [elems]. split; [|reflexivity]. split; [exact U|]. split; [exact R|]. unfold vector. rewrite V. cbn [dims elems]. unfold zlen in *. rewrite app_length. split; [f_equal; lia|lia].
  Qed.
  Lemma catcol_nopanic (l r : rep P) n m : vector l n -> vector r m -> catcol l r <> Panic.
  Proof.
    intros Vl Vr. unfold cat_columns. destruct (zlen (vals l) =? 0); [discriminate|]. destruct (zlen (vals r) =? 0); [discriminate|].
    rewrite (vector_view l n Vl), (vector_view r m Vr), catenate_vec. cbn [obind asArr vec elems].
    destruct (unify_view M t hu (RMixed (vec (elems (view l) ++ elems (view r))))) as (A & ok & E & _); [split; [intros _; apply wf_vec|exact Logic.I]|discriminate|]. rewrite E. discriminate.
  Qed.
  Lemma dict2table_ok (d : dict K (rep P)) n : proper keq d -> keysOf d <> [] -> (forall k r, At keq d k = Some r -> fitting M n r) -> 0 <= n ->
    dict2table keq d = Ok (mkTable d n) /\ good M keq (mkTable d n).
  Proof.
    intros Hp Hne Hf H0. split; [|split; [exact Hp|split; [exact H0|exact Hf]]]. unfold dict2table. destruct (keysOf d) as [|k ks] eqn:Ek; [congruence|].
    destruct (proj1 (proj2 Hp k)) as (r & Er); [rewrite Ek; left; reflexivity|]. rewrite Er. destruct (Hf k r Er) as (_ & _ & (Hd & _)). unfold shape. rewrite Hd. reflexivity.
  Qed.

  (* T⍪U: tables with the same columns, in any order, whose types agree: the rows of T, then
     those of U *)
  Theorem C106_below (T U : table) : good M keq T -> good M keq U -> plain_cells M t hu keq T -> plain_cells M t hu keq U ->
    keysOf (tdict T) <> [] -> (forall k, In k (keysOf (tdict T)) <-> In k (keysOf (tdict U))) ->
    (forall i j k v w, cell keq T i k = Some v -> cell keq U j k = Some w -> stypeOf M v = stypeOf M w) ->
    exists W, cat true T U = Ok W /\ good M keq W /\ keysOf (tdict W) = keysOf (tdict T) /\ Rows W = Rows T + Rows U /\
      (forall i k, 0 <= i < Rows T -> cell keq W i k = cell keq T i k) /\
      (forall i k, 0 <= i < Rows U -> cell keq W (Rows T + i) k = cell keq U i k).
  Proof.
    intros GT GU PT PU Hne Hkeys Hty. assert (HnT : NoDup (keysOf (tdict T))) by apply GT. assert (HnU : NoDup (keysOf (tdict U))) by apply GU.
    assert (Hlen : zlen (keysOf (tdict T)) = zlen (keysOf (tdict U))).
    { pose proof (NoDup_incl_length HnT (fun k Hi => proj1 (Hkeys k) Hi)). pose proof (NoDup_incl_length HnU (fun k Hi => proj2 (Hkeys k) Hi)). unfold zlen. lia. }
    set (h := fun k => match At keq (tdict U) k with None => Err | Some rv => let* lv := column keq (tdict T) k in catcol lv rv end).
    assert (Hh : forall k, In k (keysOf (tdict T)) -> exists l r c, At keq (tdict T) k = Some l /\ At keq (tdict U) k = Some r /\ h k = Ok c /\ fitting M (Rows T + Rows U) c /\ elems (view c) = elems (view l) ++ elems (view r)).
    { intros k Hi. destruct (column_ok M keq T k GT Hi) as (l & El & Al & Ul & Rl & Vl). destruct (column_ok M keq U k GU (proj1 (Hkeys k) Hi)) as (r & _ & Ar & Ur & Rr & Vr).
      destruct (catcol_ok l r (Rows T) (Rows U) Rl Rr Vl Vr) as (c & Ec & F & Hc); [intros _; exact Ur|intros _; exact Ul| |].
      - intros H1 H2. assert (Hcl : forall x, In x (elems (view l)) -> exists i, cell keq T i k = Some x) by (intros x Hx; apply In_znth in Hx; destruct Hx as (i & Hx); exists i; unfold cell; rewrite Al; exact Hx).
        assert (Hcr : forall x, In x (elems (view r)) -> exists i, cell keq U i k = Some x) by (intros x Hx; apply In_znth in Hx; destruct Hx as (i & Hx); exists i; unfold cell; rewrite Ar; exact Hx).
        split.
        + intros x y Hx Hy. apply in_app_iff in Hx, Hy. destruct Hx as [Hx|Hx], Hy as [Hy|Hy].
          * apply (rep_one_type M l Rl Ul x y Hx Hy).
          * destruct (Hcl x Hx) as (i & Hi'), (Hcr y Hy) as (j & Hj). apply (Hty i j k x y Hi' Hj).
          * destruct (Hcr x Hx) as (i & Hi'), (Hcl y Hy) as (j & Hj). symmetry. apply (Hty j i k y x Hj Hi').
          * apply (rep_one_type M r Rr Ur x y Hx Hy).
        + intros x Hx. apply in_app_iff in Hx. destruct Hx as [Hx|Hx]; [destruct (Hcl x Hx) as (i & Hi'); apply (PT i k x Hi')|destruct (Hcr x Hx) as (i & Hi'); apply (PU i k x Hi')].
      - exists l, r, c. split; [exact Al|]. split; [exact Ar|]. split; [unfold h; rewrite Ar, El; exact Ec|]. split; assumption. }
    destruct (mapM_pairs h (keysOf (tdict T))) as (kvs & Em & Ef & Hin); [intros k Hi; destruct (Hh k Hi) as (l & r & c & _ & _ & Ec & _); exists c; exact Ec|].
    assert (Hnk : NoDup (map fst kvs)) by (rewrite Ef; exact HnT).
    assert (Hat : forall k c, At keq (ofpairs keq kvs) k = Some c <-> In k (keysOf (tdict T)) /\ h k = Ok c) by (intros k c; rewrite (ofpairs_At keq Hk kvs k c Hnk); apply Hin).
    destruct (dict2table_ok (ofpairs keq kvs) (Rows T + Rows U)) as (Ed & Gd).
    { apply (ofpairs_proper keq Hk); exact Hnk. } { unfold ofpairs. cbn [keysOf]. rewrite Ef. exact Hne. }
    { intros k c Hc. apply Hat in Hc. destruct Hc as (Hi & Hc). destruct (Hh k Hi) as (l & r & c' & _ & _ & Ec & F & _). assert (c' = c) by congruence. subst c'. exact F. }
    { destruct GT as (_ & A & _), GU as (_ & B & _). lia. }
    exists (mkTable (ofpairs keq kvs) (Rows T + Rows U)). split; [|split; [exact Gd|split; [exact Ef|split; [reflexivity|]]]].
    - unfold catTables. cbn [negb]. rewrite Hlen, Z.eqb_refl. cbn [negb]. rewrite (mapM_ext _ (fun k => let* w := h k in Ok (k, w))).
      2:{ intros k _. unfold h. destruct (At keq (tdict U) k); [|reflexivity]. destruct (column keq (tdict T) k); reflexivity. }
      rewrite Em. cbn [obind]. replace (forallb _ _) with true; [exact Ed|]. symmetry. apply forallb_forall. intros k Hi. apply Hkeys in Hi. destruct (Hh k Hi) as (l & r & c & _ & _ & Ec & _).
      rewrite (proj2 (Hat k c) (conj Hi Ec)). reflexivity.
    - assert (Hcell : forall i k, cell keq (mkTable (ofpairs keq kvs) (Rows T + Rows U)) i k = match At keq (tdict T) k, At keq (tdict U) k with Some l, Some r => znth (elems (view l) ++ elems (view r)) i | _, _ => None end).
      { intros i k. unfold cell. cbn [tdict]. destruct (At keq (tdict T) k) as [l|] eqn:El.
        - assert (Hi : In k (keysOf (tdict T))) by (apply GT; exists l; exact El). destruct (Hh k Hi) as (l' & r & c & El' & Er & Ec & _ & Hc). rewrite (proj2 (Hat k c) (conj Hi Ec)), Er, Hc. congruence.
        - destruct (At keq (ofpairs keq kvs) k) as [c|] eqn:Ec; [|reflexivity]. apply Hat in Ec. destruct Ec as (Hi & _). apply GT in Hi. destruct Hi as (v & Ev). congruence. }
      assert (Hsome : forall k l, At keq (tdict T) k = Some l -> zlen (elems (view l)) = Rows T) by (intros k l El; apply GT in El; apply El).
      split; intros i k Hi; rewrite Hcell; unfold cell.
      + destruct (At keq (tdict T) k) as [l|] eqn:El; [|reflexivity]. assert (Hin' : In k (keysOf (tdict U))) by (apply Hkeys; apply GT; exists l; exact El). apply GU in Hin'. destruct Hin' as (r & Er). rewrite Er. rewrite znth_app_l by (rewrite (Hsome k l El); lia). reflexivity.
      + destruct (At keq (tdict T) k) as [l|] eqn:El.
        * destruct (At keq (tdict U) k) as [r|]; [|reflexivity]. rewrite znth_app_r by (rewrite (Hsome k l El); lia). f_equal. rewrite (Hsome k l El). lia.
        * destruct (At keq (tdict U) k) as [r|] eqn:Er; [|reflexivity]. assert (Hin' : In k (keysOf (tdict T))) by (apply Hkeys; apply GU; exists r; exact Er). apply GT in Hin'. destruct Hin' as (v & Ev). congruence.
  Qed.
  (* tables with different columns are refused *)
  Theorem C106_different (T U : table) k : good M keq T -> good M keq U ->
    (In k (keysOf (tdict T)) /\ ~ In k (keysOf (tdict U)) \/ ~ In k (keysOf (tdict T)) /\ In k (keysOf (tdict U))) -> cat true T U = Err.
  Proof.
    intros GT GU H. unfold catTables. cbn [negb]. destruct (zlen (keysOf (tdict T)) =? zlen (keysOf (tdict U))); [|reflexivity]. cbn [negb].
    match goal with |- context [mapM ?h (keysOf (tdict T))] => set (g := h) end.
    assert (Hnp : forall k', In k' (keysOf (tdict T)) -> g k' <> Panic).
    { intros k' Hi. unfold g. destruct (At keq (tdict U) k') as [r|] eqn:Er; [|discriminate]. destruct (column_ok M keq T k' GT Hi) as (l & El & _ & _ & _ & Vl). rewrite El. cbn [obind].
      apply GU in Er. destruct Er as (_ & _ & Vr). pose proof (catcol_nopanic l r _ _ Vl Vr) as Hc. destruct (catcol l r); [discriminate|discriminate|congruence]. }
    assert (Hm : mapM g (keysOf (tdict T)) <> Panic) by (apply mapM_nopanic; exact Hnp).
    destruct (mapM g (keysOf (tdict T))) as [kvs| |] eqn:Em; [|reflexivity|congruence]. cbn [obind].
    assert (Hg : forall k' kv, g k' = Ok kv -> fst kv = k' /\ exists r, At keq (tdict U) k' = Some r).
    { intros k' kv E. unfold g in E. destruct (At keq (tdict U) k') as [r|]; [|discriminate]. split; [|exists r; reflexivity]. destruct (column keq (tdict T) k') as [l| |]; try discriminate. cbn [obind] in E. destruct (catcol l r); try discriminate. injection E as <-. reflexivity. }
    assert (Hfst : map fst kvs = keysOf (tdict T) /\ forall k', In k' (keysOf (tdict T)) -> In k' (keysOf (tdict U))).
    { apply mapM_Forall2 in Em. clear -Em Hg GU. induction Em as [|k' kv ks kvs E F (IH1 & IH2)]; [split; [reflexivity|intros ? []]|]. destruct (Hg _ _ E) as (A & r & B). cbn [map]. split; [congruence|]. intros k'' [<-|Hi]; [apply GU; exists r; exact B|apply IH2; exact Hi]. }
    destruct Hfst as (Hfst & Hsub). destruct H as [(H1 & H2)|(H1 & H2)]; [exfalso; apply H2; apply Hsub; exact H1|].
    match goal with |- (if ?b then _ else _) = _ => enough (E : b = false) by (rewrite E; reflexivity) end.
    apply not_true_is_false. intros Hb. rewrite forallb_forall in Hb. specialize (Hb k H2). destruct (At keq (ofpairs keq kvs) k) as [c|] eqn:Ec; [|discriminate].
    apply (ofpairs_At keq Hk) in Ec; [|rewrite Hfst; apply GT]. apply H1. rewrite <- Hfst. apply (in_map fst) in Ec. exact Ec.
  Qed.

  (* T,U: tables with the same number of rows: the columns of both, those of U where a name
     occurs in both *)
  Theorem C106_beside (T U : table) : good M keq T -> good M keq U -> Rows T = Rows U -> keysOf (tdict T) <> [] ->
    exists W, cat false T U = Ok W /\ good M keq W /\ first_order (keysOf (tdict T) ++ keysOf (tdict U)) (keysOf (tdict W)) /\ Rows W = Rows T /\
      forall k, At keq (tdict W) k = match At keq (tdict U) k with Some r => Some r | None => At keq (tdict T) k end.
  Proof.
    intros GT GU HR Hne. destruct (C85_first keq Hk catcol (tdict T) (tdict U) (proj1 GT) (proj1 GU)) as (e & Ee & Pe & Oe & He).
    assert (Hine : forall k, In k (keysOf e) <-> In k (keysOf (tdict T)) \/ In k (keysOf (tdict U))) by (intros k; rewrite (first_order_In _ _ k Oe), in_app_iff; tauto).
    destruct (dict2table_ok e (Rows T) Pe) as (Ed & Gd).
    - intros E. destruct (keysOf (tdict T)) as [|k ks] eqn:Ek; [congruence|]. assert (In k (keysOf e)) by (apply Hine; left; left; reflexivity). rewrite E in *. contradiction.
    - intros k r Er. rewrite He in Er. destruct (At keq (tdict U) k) as [r'|] eqn:E'; [injection Er as <-; rewrite HR; apply (proj2 (proj2 GU) k r' E')|apply (proj2 (proj2 GT) k r Er)].
    - apply GT.
    - exists (mkTable e (Rows T)). unfold catTables. cbn [negb]. rewrite Ee. cbn [obind]. split; [exact Ed|]. split; [exact Gd|]. split; [exact Oe|]. split; [reflexivity|exact He].
  Qed.

  (* T,X and X,T with a scalar or a vector X: its values are added to every column *)
  Definition value_of (x : @tval P) (vs : list sv) : Prop :=
    match x with TScal v => vs = [v] | TArr r => vs = elems (view r) /\ rep_ok M r /\ vector r (zlen vs) end.
  Theorem C106_value (T : table) (left : bool) x vs : good M keq T -> plain_cells M t hu keq T -> keysOf (tdict T) <> [] -> 0 < Rows T -> value_of x vs -> vs <> [] ->
    (forall i k v w, cell keq T i k = Some v -> In w vs -> stypeOf M v = stypeOf M w) ->
    exists W, catValue M t hu keq origin left x T = Ok W /\ good M keq W /\ keysOf (tdict W) = keysOf (tdict T) /\ Rows W = Rows T + zlen vs /\
      forall k r, At keq (tdict T) k = Some r -> exists c, At keq (tdict W) k = Some c /\ elems (view c) = if left then vs ++ elems (view r) else elems (view r) ++ vs.
  Proof.
    intros GT PT Hne H0 Hx Hvs Hty. set (xr := match x with TScal v => RMixed (mkArr [1] [v]) | TArr r => r end).
    assert (Hxr : rep_ok M xr /\ vector xr (zlen vs) /\ elems (view xr) = vs).
    { destruct x as [v|r]; cbn [xr value_of] in *; [subst vs|destruct Hx as (-> & Hr & Hv)]; unfold xr; cbn [view elems dims]; [|split; [exact Hr|split; [exact Hv|reflexivity]]].
      split; [split; [intros _; apply (wf_vec [v])|exact Logic.I]|]. split; [split; reflexivity|reflexivity]. }
    destruct Hxr as (Rx & Vx & Ex). assert (Hz : 0 < zlen vs) by (destruct vs; [congruence|rewrite zlen_cons; pose proof (zlen_nonneg vs); lia]).
    set (h := fun k => let* c := column keq (tdict T) k in if left then catcol xr c else catcol c xr).
    assert (Hh : forall k, In k (keysOf (tdict T)) -> exists l c, At keq (tdict T) k = Some l /\ h k = Ok c /\ fitting M (Rows T + zlen vs) c /\ elems (view c) = if left then vs ++ elems (view l) else elems (view l) ++ vs).
    { intros k Hi. destruct (column_ok M keq T k GT Hi) as (l & El & Al & Ul & Rl & Vl). unfold h. rewrite El. cbn [obind].
      assert (Hcl : forall y, In y (elems (view l)) -> exists i, cell keq T i k = Some y) by (intros y Hy; apply In_znth in Hy; destruct Hy as (i & Hy); exists i; unfold cell; rewrite Al; exact Hy).
      destruct (znth (elems (view l)) 0) as [v0|] eqn:Ev0; [|apply znth_none in Ev0; destruct Vl; lia].
      assert (Hc0 : cell keq T 0 k = Some v0) by (unfold cell; rewrite Al; exact Ev0).
      assert (Hall : forall y, In y (elems (view l)) \/ In y vs -> stypeOf M y = stypeOf M v0).
      { intros y [Hy|Hy]; [apply (rep_one_type M l Rl Ul y v0 Hy); eapply znth_In; exact Ev0|symmetry; apply (Hty 0 k v0 y Hc0 Hy)]. }
      assert (Hpl : forall y, In y (elems (view l)) \/ In y vs -> plain M t hu y).
      { intros y Hy. specialize (Hall y Hy). specialize (PT 0 k v0 Hc0). unfold plain in *. destruct y, v0; cbn in Hall; try discriminate; [|congruence]. rewrite (sclass_type M t (VNum n) (VNum n0)); [injection Hall as ->; exact PT|exact Hall]. }
      destruct left.
      - destruct (catcol_ok xr l (zlen vs) (Rows T) Rx Rl Vx Vl) as (c & Ec & F & Hc); [intros _; exact Ul|lia| |].
        + intros _ _. rewrite Ex. split; [intros a b Ha Hb|intros a Ha; apply Hpl]; apply in_app_iff in Ha; try apply in_app_iff in Hb; [rewrite (Hall a), (Hall b) by tauto; reflexivity|tauto].
        + exists l, c. split; [exact Al|]. split; [exact Ec|]. rewrite Z.add_comm. split; [exact F|]. rewrite Hc, Ex. reflexivity.
      - destruct (catcol_ok l xr (Rows T) (zlen vs) Rl Rx Vl Vx) as (c & Ec & F & Hc); [lia|lia| |].
        + intros _ _. rewrite Ex. split; [intros a b Ha Hb|intros a Ha; apply Hpl]; apply in_app_iff in Ha; try apply in_app_iff in Hb; [rewrite (Hall a), (Hall b) by tauto; reflexivity|tauto].
        + exists l, c. split; [exact Al|]. split; [exact Ec|]. split; [exact F|]. rewrite Hc, Ex. reflexivity. }
    destruct (mapM_pairs h (keysOf (tdict T))) as (kvs & Em & Ef & Hin); [intros k Hi; destruct (Hh k Hi) as (l & c & _ & Ec & _); exists c; exact Ec|].
    assert (Hnk : NoDup (map fst kvs)) by (rewrite Ef; apply GT).
    assert (Hat : forall k c, At keq (ofpairs keq kvs) k = Some c <-> In k (keysOf (tdict T)) /\ h k = Ok c) by (intros k c; rewrite (ofpairs_At keq Hk kvs k c Hnk); apply Hin).
    destruct (dict2table_ok (ofpairs keq kvs) (Rows T + zlen vs)) as (Ed & Gd).
    { apply (ofpairs_proper keq Hk); exact Hnk. } { unfold ofpairs. cbn [keysOf]. rewrite Ef. exact Hne. }
    { intros k c Hc. apply Hat in Hc. destruct Hc as (Hi & Hc). destruct (Hh k Hi) as (l & c' & _ & Ec & F & _). assert (c' = c) by congruence. subst c'. exact F. }
    { lia. }
    exists (mkTable (ofpairs keq kvs) (Rows T + zlen vs)). split; [|split; [exact Gd|split; [exact Ef|split; [reflexivity|]]]].
    - unfold catValue. fold xr. rewrite (mapM_ext _ (fun k => let* w := h k in Ok (k, w))); [rewrite Em; exact Ed|]. intros k _. unfold h. destruct (column keq (tdict T) k); [|reflexivity|reflexivity]. cbn [obind]. reflexivity.
    - intros k r Er. assert (Hi : In k (keysOf (tdict T))) by (apply GT; exists r; exact Er). destruct (Hh k Hi) as (l & c & El & Ec & _ & Hc). exists c. assert (l = r) by congruence. subst l. split; [apply Hat; split; assumption|exact Hc].
  Qed.
End C106.
Print Assumptions C106_below.
Print Assumptions C106_different.
Print Assumptions C106_beside.
Print Assumptions C106_value.

Definition exU : @table bignum string :=
  mkTable (mkDict ["b"; "a"]%string [("b", RStrings (vec ["u"; "v"])); ("a", RInts (vec [7; 8]))]%string) 2.
Definition cat3 := catTables tM bigT (fun _ => true) seqb 1.
Example C106_example :
  (good tM seqb exT /\ keysOf (tdict exT) <> [] /\ forall k, In k (keysOf (tdict exT)) <-> In k (keysOf (tdict exU))) /\
  cat3 true exT exU = Ok (mkTable (mkDict ["a"; "b"]%string [("a", RInts (vec [1; 2; 3; 7; 8])); ("b", RStrings (vec ["x"; "y"; "z"; "u"; "v"]))]%string) 5) /\
  cat3 true exT (mkTable (mkDict ["a"; "c"]%string [("a", RInts (vec [7])); ("c", RInts (vec [7]))]%string) 1) = Err /\
  cat3 false exT (mkTable (mkDict ["b"; "c"]%string [("b", RInts (vec [7; 8; 9])); ("c", RInts (vec [4; 5; 6]))]%string) 3) =
    Ok (mkTable (mkDict ["a"; "b"; "c"]%string [("a", RInts (vec [1; 2; 3])); ("b", RInts (vec [7; 8; 9])); ("c", RInts (vec [4; 5; 6]))]%string) 3) /\
  catValue tM bigT (fun _ => true) seqb 1 true (TScal (ni 9)) (mkTable (mkDict ["a"]%string [("a", RInts (vec [1; 2]))]%string) 2) =
    Ok (mkTable (mkDict ["a"]%string [("a", RInts (vec [9; 1; 2]))]%string) 3).
Proof.
  split; [split; [exact exT_good|split; [discriminate|intros k; cbn; tauto]]|].
  split; [vm_compute; reflexivity|]. split; [vm_compute; reflexivity|]. split; vm_compute; reflexivity.
Qed.
(* C107: the result of a catenation need not be a proper table.  T,U with different numbers
   of rows is not refused, and selecting a row of the result crashes *)
Definition exV : @table bignum string := mkTable (mkDict ["c"]%string [("c", RInts (vec [7]))]%string) 1.
Theorem C107_rows_refuted : exists W, cat3 false exT exV = Ok W /\ ~ good tM seqb W /\ tableIndex tM seqb (fun s => s) 1 W (RowInts [2]) ColNone = Panic.
Proof.
  eexists. split; [vm_compute; reflexivity|]. split; [|vm_compute; reflexivity].
  intros (_ & _ & G). destruct (G "c"%string (RInts (vec [7])) eq_refl) as (_ & _ & (D & _)). discriminate D.
Qed.
(* T⍪U with booleans above integers is not refused, and is no table of compact columns *)
Definition exB : @table bignum string := mkTable (mkDict ["c"]%string [("c", RBools (vec [true]))]%string) 1.
Theorem C107_types_refuted : exists W, cat3 true exB exV = Ok W /\ ~ good tM seqb W /\ tableIndex tM seqb (fun s => s) 1 W (RowInts [1]) ColNone = Panic.
Proof.
  eexists. split; [vm_compute; reflexivity|]. split; [|vm_compute; reflexivity].
  intros (_ & _ & G). destruct (G "c"%string (RMixed (mkArr [2] [VNum (NB true); ni 7])) eq_refl) as (U & _). discriminate U.
Qed.
(* without these two it is: *)
Theorem C107_proper_partial {P : Type} (M : methods P) (t : tower P) (hu : ntype -> bool) {K : Type} (keq : K -> K -> bool) (origin : Z) (first : bool) (T U : @table P K) :
  key_equality keq -> good M keq T -> good M keq U -> plain_cells M t hu keq T -> plain_cells M t hu keq U -> keysOf (tdict T) <> [] ->
  Rows T = Rows U -> (forall i j k v w, cell keq T i k = Some v -> cell keq U j k = Some w -> stypeOf M v = stypeOf M w) ->
  forall W, catTables M t hu keq origin first T U = Ok W -> good M keq W.
Proof.
  intros Hk GT GU PT PU Hne HR Hty W E. destruct first.
  - assert (Hdec : forall k (l : list K), In k l \/ ~ In k l) by (intros k l; destruct (in_dec (keq_dec keq Hk) k l); auto).
    assert (Hkeys : forall k, In k (keysOf (tdict T)) <-> In k (keysOf (tdict U))).
    { intros k. destruct (Hdec k (keysOf (tdict T))) as [H1|H1], (Hdec k (keysOf (tdict U))) as [H2|H2]; try tauto; exfalso;
        rewrite (C106_different M t hu keq Hk origin T U k GT GU) in E by tauto; discriminate. }
    destruct (C106_below M t hu keq Hk origin T U GT GU PT PU Hne Hkeys Hty) as (W' & E' & G & _). congruence.
  - destruct (C106_beside M t hu keq Hk origin T U GT GU HR Hne) as (W' & E' & G & _). congruence.
Qed.
Print Assumptions C107_proper_partial.
