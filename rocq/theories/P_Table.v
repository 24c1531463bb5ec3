(* P_Table.v -- proofs about tables. *)
From Coq Require Import String.
From Verif Require Import Base M_Array S_Array P_Array M_Structural M_Number S_Number P_Number P_Tower M_Scalar P_Scalar M_Dict S_Dict P_Dict M_Table S_Table.
Open Scope Z_scope.

Section P.
  Context {P : Type} (M : methods P) (t : tower P) (hu : ntype -> bool).
  Local Notation sv := (sval P).
  (* the type of the elements of a compact array *)
  Definition ctype (r : rep P) : option styp :=
    match r with RBools _ => Some (SN TB) | RInts _ => Some (SN TI) | RStrings _ => Some (SO strT) | RNums ty _ => Some (SN (TT ty)) | _ => None end.
  Lemma ctype_In r v : rep_ok M r -> isUniform r = true -> In v (elems (view r)) -> ctype r = Some (stypeOf M v).
  Proof.
    intros (_ & H) Hu Hv. destruct r as [a|l|a|a|a|ty a|]; try discriminate Hu; cbn [view amap elems] in Hv; apply in_map_iff in Hv; destruct Hv as (x & <- & Hx); try reflexivity.
    rewrite Forall_forall in H. cbn. rewrite (H x Hx). reflexivity.
  Qed.
  Lemma wf_vec {A} (l : list A) : wf (mkArr [zlen l] l).
  Proof. split; [discriminate|]. pose proof (zlen_nonneg l). split; [constructor; [lia|constructor]|]. cbn. change (Z.of_nat (length l)) with (zlen l). unfold size. cbn. lia. Qed.
  Lemma vec_rep_ok (r : rep P) vs : view r = mkArr [zlen vs] vs -> match r with RNums ty a => Forall (fun p => ptype M p = ty) (elems a) | _ => True end -> rep_ok M r.
  Proof. intros E H. split; [|exact H]. rewrite E. intros _. apply wf_vec. Qed.

  Lemma build_ok c vs : isUniform c = true -> (forall v, In v vs -> ctype c = Some (stypeOf M v)) ->
    exists r, build M c vs = Ok r /\ view r = mkArr [zlen vs] vs /\ isUniform r = true /\ rep_ok M r /\ same_rep r c = true.
  Proof.
    intros Hu H. unfold build, uniform. rewrite Hu. destruct c as [a|l|a|a|a|ty a|]; try discriminate Hu.
    - destruct (mapM_inj (@toB P) (fun b => VNum (NB b)) vs) as (r & Hr & Hm).
      { intros v Hv. specialize (H v Hv). destruct v as [[x|x|x]|? ?]; try discriminate H. exists x. split; reflexivity. }
      rewrite Hr. cbn [obind]. eexists. split; [reflexivity|]. cbn [view]. unfold amap. cbn [dims elems]. rewrite Hm. split; [reflexivity|]. split; [reflexivity|]. split; [|reflexivity].
      apply (vec_rep_ok _ vs); [|exact Logic.I]. cbn [view]. unfold amap. cbn [dims elems]. rewrite Hm. reflexivity.
    - destruct (mapM_inj (@toI P) (fun b => VNum (NI b)) vs) as (r & Hr & Hm).
      { intros v Hv. specialize (H v Hv). destruct v as [[x|x|x]|? ?]; try discriminate H. exists x. split; reflexivity. }
      rewrite Hr. cbn [obind]. eexists. split; [reflexivity|]. cbn [view]. unfold amap. cbn [dims elems]. rewrite Hm. split; [reflexivity|]. split; [reflexivity|]. split; [|reflexivity].
      apply (vec_rep_ok _ vs); [|exact Logic.I]. cbn [view]. unfold amap. cbn [dims elems]. rewrite Hm. reflexivity.
    - destruct (mapM_inj (@toS P) (fun b => VOth strT b) vs) as (r & Hr & Hm).
      { intros v Hv. specialize (H v Hv). destruct v as [[x|x|x]|ty s]; try discriminate H. injection H as <-. exists s. split; reflexivity. }
      rewrite Hr. cbn [obind]. eexists. split; [reflexivity|]. cbn [view]. unfold amap. cbn [dims elems]. rewrite Hm. split; [reflexivity|]. split; [reflexivity|]. split; [|reflexivity].
      apply (vec_rep_ok _ vs); [|exact Logic.I]. cbn [view]. unfold amap. cbn [dims elems]. rewrite Hm. reflexivity.
    - assert (Ht : forall v, In v vs -> exists p, v = VNum (NT p) /\ ptype M p = ty).
      { intros v Hv. specialize (H v Hv). destruct v as [[x|x|x]|? s]; try discriminate H. exists x. cbn in H. split; [reflexivity|congruence]. }
      destruct (mapM_inj (toP M ty) (fun b => VNum (NT b)) vs) as (r & Hr & Hm).
      { intros v Hv. destruct (Ht v Hv) as (p & -> & E). exists p. cbn. rewrite E, Z.eqb_refl. split; reflexivity. }
      rewrite Hr. cbn [obind]. eexists. split; [reflexivity|]. cbn [view]. unfold amap. cbn [dims elems]. rewrite Hm. split; [reflexivity|]. split; [reflexivity|]. split; [|cbn; apply Z.eqb_refl].
      apply (vec_rep_ok _ vs); [cbn [view]; unfold amap; cbn [dims elems]; rewrite Hm; reflexivity|].
      cbn [elems]. rewrite Forall_forall. intros p Hp. destruct (Ht (VNum (NT p))) as (q & E & Hq); [rewrite <- Hm; apply in_map_iff; exists p; split; [reflexivity|exact Hp]|]. congruence.
  Qed.
  Lemma mapM_fails {A B} (f : A -> outcome B) l v : In v l -> (forall b, f v <> Ok b) -> forall r, mapM f l <> Ok r.
  Proof.
    induction l as [|x l IH]; intros [] Hf r; cbn [mapM].
    - subst x. destruct (f v) as [b| |]; cbn [obind]; [exfalso; apply (Hf b); reflexivity|discriminate|discriminate].
    - destruct (f x); cbn [obind]; try discriminate. destruct (mapM f l) eqn:E; cbn [obind]; try discriminate. exfalso. eapply IH; eauto.
  Qed.
  Lemma build_err c vs v : isUniform c = true -> In v vs -> ctype c <> Some (stypeOf M v) -> build M c vs = Err.
  Proof.
    intros Hu Hv H. unfold build, uniform. rewrite Hu. destruct c as [a|l|a|a|a|ty a|]; try discriminate Hu.
    all: match goal with |- context [mapM ?f ?l] => match goal with w : sval P |- _ => assert (Hf : forall b, f w <> Ok b);
           [intros b E|pose proof (mapM_fails f l w Hv Hf) as Hm; destruct (mapM f l) as [r| |]; [exfalso; apply (Hm r); reflexivity|reflexivity|reflexivity]] end end.
    - destruct v as [[x|x|x]|? ?]; try discriminate E. apply H. reflexivity.
    - destruct v as [[x|x|x]|? ?]; try discriminate E. apply H. reflexivity.
    - destruct v as [[x|x|x]|ty s]; try discriminate E. cbn in E. destruct (Z.eqb_spec ty strT) as [->|]; [apply H; reflexivity|discriminate].
    - destruct v as [[x|x|x]|? s]; try discriminate E. cbn in E. destruct (Z.eqb_spec (ptype M x) ty) as [<-|]; [apply H; reflexivity|discriminate].
  Qed.

  (* ---- Unify gives compact arrays ---- *)
  Lemma uniform_reshape_ok vs d r : one_type M vs -> wf (mkArr d vs) -> vs <> [] -> uniform_reshape M hu vs d = Ok (Some r) ->
    view r = mkArr d vs /\ isUniform r = true /\ rep_ok M r.
  Proof.
    intros H1 Hw Hne E. destruct (uniform_reshape_view M hu vs d H1 Hw Hne) as (u & E' & V). rewrite E' in E. injection E as ->. destruct V as (V & U).
    split; [exact V|]. split; [exact U|]. split; [rewrite V; intros _; exact Hw|].
    destruct r as [a|l|a|a|a|ty a|]; try exact Logic.I.
    unfold uniform_reshape in E'. destruct vs as [|v0 rest]; [congruence|]. destruct (match v0 with VNum n => _ | _ => _ end) in E'; [discriminate E'|]. destruct v0 as [[b|z|p]|ty' s]; try discriminate E'.
    - destruct (mapM _ _) as [l| |]; try discriminate E'. cbn [obind] in E'. destruct (Reshape _ _) as [r| |]; discriminate E'.
    - destruct (mapM _ _) as [l| |]; try discriminate E'. cbn [obind] in E'. destruct (IntReshape _ _) as [[r|]| |]; discriminate E'.
    - destruct (mapM _ _) as [l| |]; try discriminate E'. cbn [obind] in E'. destruct (Reshape _ _) as [r| |]; try discriminate E'. cbn [obind] in E'. injection E' as <- <-.
      cbn [view] in V. injection V as _ V. rewrite Forall_forall. intros q Hq.
      assert (Hi : In (VNum (NT q)) (VNum (NT p) :: rest)) by (rewrite <- V; apply in_map_iff; exists q; split; [reflexivity|exact Hq]).
      specialize (H1 _ _ Hi (or_introl eq_refl)). cbn in H1. congruence.
  Qed.
  (* values of one type, numbers of the tower or strings, become a compact array *)
  Lemma unify_one_type vs d up : one_type M vs -> wf (mkArr d vs) -> vs <> [] -> (forall v, In v vs -> plain M t hu v) ->
    exists r, Unify M t hu (RMixed (mkArr d vs)) up = Ok (r, true) /\ view r = mkArr d vs /\ isUniform r = true /\ rep_ok M r.
  Proof.
    intros H1 Hw Hne Hp. unfold Unify. cbn [isUniform view elems dims]. destruct vs as [|v0 rest]; [congruence|].
    destruct (scan_spec M t v0 rest) as (S1 & S2). destruct (scan M t v0 rest) as (same, max). cbn [fst snd] in S1, S2.
    assert (Hs : same = true) by (rewrite S1; apply one_type_head; exact H1). rewrite Hs. clear Hs S1. cbn [negb andb].
    destruct max as [(c, m)|].
    - destruct (uniform_reshape_view M hu (v0 :: rest) d H1 Hw Hne) as (u & E & V). rewrite E. cbn [obind]. destruct u as [r|].
      + exists r. split; [reflexivity|]. eapply uniform_reshape_ok; eauto.
      + exfalso. destruct V as [(n & V & Hn)|(ty & s & V)]; [destruct (Hp _ V); congruence|]. destruct S2 as (_ & _ & S2). destruct (S2 _ V) as (c' & E' & _). discriminate.
    - destruct S2 as (v & Hv & Ev). assert (Es : exists s, v = VOth strT s).
      { specialize (Hp v Hv). destruct v as [n|ty s]; unfold plain in Hp; [destruct Hp; congruence|]. subst ty. exists s. reflexivity. }
      destruct Es as (s & ->). pose proof (H1 _ _ (or_introl eq_refl) Hv) as E0. destruct v0 as [n|ty s0]; [discriminate|]. injection E0 as ->.
      cbn [Z.eqb]. change (strT =? strT) with true. cbv iota.
      destruct (mapM_inj (@toS P) (fun s => VOth strT s) (VOth strT s0 :: rest)) as (r & Hr & Hm).
      { intros w Hw'. specialize (H1 w _ Hw' (or_introl eq_refl)). destruct w as [n|ty' s']; try discriminate H1. injection H1 as ->. exists s'. split; reflexivity. }
      rewrite Hr. cbn [obind]. eexists. split; [reflexivity|].
      assert (V : view (RStrings (mkArr d r)) = mkArr d (@VOth P strT s0 :: rest)) by (cbn [view]; unfold amap; cbn [dims elems]; rewrite Hm; reflexivity).
      split; [exact V|]. split; [reflexivity|]. split; [rewrite V; intros _; exact Hw|exact Logic.I].
  Qed.
  Lemma unify_uptype vs d : tower_ok M t -> imports_bottom M t -> wf (mkArr d vs) -> vs <> [] -> (forall v, In v vs -> plain M t hu v) ->
    exists r ok, Unify M t hu (RMixed (mkArr d vs)) true = Ok (r, ok) /\
      (ok = true -> dims (view r) = d /\ unified M t vs (elems (view r)) /\ isUniform r = true /\ rep_ok M r).
  Proof.
    intros Hok Hib Hw Hne Hp.
    destruct (forallb (fun v => match vs with v0 :: _ => styp_eqb (stypeOf M v) (stypeOf M v0) | [] => true end) vs) eqn:Es.
    { destruct (unify_one_type vs d true) as (r & E & V & U & R); try assumption.
      - destruct vs as [|v0 rest]; [congruence|]. apply one_type_head. cbn [forallb] in Es. apply andb_prop in Es. apply Es.
      - exists r, true. split; [exact E|]. intros _. rewrite V. split; [reflexivity|]. split; [left; reflexivity|]. split; [exact U|exact R]. }
    destruct (unify_up M t hu (RMixed (mkArr d vs)) Hok Hib) as (r & ok & E & _ & H); [split; [intros _; exact Hw|exact Logic.I]|discriminate|].
    exists r, ok. split; [exact E|]. intros ->. specialize (H eq_refl).
    assert (G : isUniform r = true /\ rep_ok M r /\ dims (view r) = d).
    { clear H. unfold Unify in E. cbn [isUniform view elems dims] in E. destruct vs as [|v0 rest]; [congruence|].
      destruct (scan_spec M t v0 rest) as (S1 & S2). destruct (scan M t v0 rest) as (same, max). cbn [fst snd] in S1, S2.
      assert (Hs : same = false). { destruct same; [|reflexivity]. cbn [forallb] in Es. rewrite <- S1 in Es. rewrite (proj2 (styp_eqb_eq (stypeOf M v0) _) eq_refl) in Es. discriminate. }
      rewrite Hs in E. clear Hs S1. cbn [negb andb] in E. destruct max as [(c, m)|]; [|discriminate]. destruct S2 as (S2 & S3 & S4).
      assert (HP : match mapM (fun v => match v with VNum n => omap fst (SameType M t n m) | _ => Panic end) (v0 :: rest) with
        | Ok ns => Forall2 (fun (v : sv) n' => typeOf M n' = typeOf M m) (v0 :: rest) ns
        | Err => True | Panic => False end).
      { clear - S3 S4 Hok Hib. induction (v0 :: rest) as [|v l IH]; [constructor|]. cbn [mapM].
        destruct (S4 v (or_introl eq_refl)) as (cv & Ecv & Lcv). destruct v as [n|ty s]; [|discriminate Ecv].
        pose proof (same_type_max M t n m cv c Hok Hib Ecv S3 Lcv) as Hs.
        destruct (SameType M t n m) as [(n', m')| |]; cbn [omap fst obind]; [|exact Logic.I|contradiction].
        specialize (IH (fun v Hv => S4 v (or_intror Hv))). destruct (mapM _ l) as [ns| |]; cbn [obind]; [|exact Logic.I|contradiction].
        constructor; [exact Hs|exact IH]. }
      destruct (mapM _ (v0 :: rest)) as [ns| |]; [|discriminate|contradiction].
      assert (Hall : forall z, In z ns -> typeOf M z = typeOf M m).
      { clear - HP. induction HP as [|v n' l ns Hty _ IH]; [intros z []|intros z [<-|Hz]; [exact Hty|apply IH; exact Hz]]. }
      assert (Hz : zlen ns = zlen (v0 :: rest)) by (symmetry; eapply Forall2_zlen; exact HP).
      assert (Hw' : wf (mkArr d (map (@VNum P) ns))).
      { destruct Hw as (W1 & W2 & W3). split; [exact W1|]. split; [exact W2|]. cbn [dims elems] in *. rewrite zlen_map, Hz. exact W3. }
      destruct (uniform_reshape M hu (map VNum ns) d) as [[u|]| |] eqn:Eu; cbn [obind] in E; try discriminate. injection E as <-.
      apply uniform_reshape_ok in Eu; [|intros v w Hv Hw1; apply in_map_iff in Hv, Hw1; destruct Hv as (x & <- & Hx), Hw1 as (y & <- & Hy); cbn [stypeOf]; rewrite (Hall x Hx), (Hall y Hy); reflexivity|exact Hw'|intros Em; destruct ns; [discriminate Hz|discriminate]].
      destruct Eu as (V & U & R). rewrite V. split; [exact U|]. split; [exact R|reflexivity]. }
    destruct G as (U & R & D). split; [exact D|]. split; [|split; assumption].
    destruct H as [H|(m & H1 & H2 & H3)]; [left; rewrite H; reflexivity|right]. exists m. split; [exact H1|exact H3].
  Qed.
End P.
