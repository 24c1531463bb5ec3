(* P_Scalar.v -- representations and the array forms of the scalar functions. *)
From Coq Require Import String Permutation.
From Verif Require Import Base M_Array S_Array P_Array M_Structural P_Transpose M_Number S_Number P_Number P_Tower M_Scalar.
Open Scope Z_scope.

Section UNI.
  Context {P : Type} (M : methods P) (t : tower P).
  Local Notation sv := (sval P).

  Lemma styp_eqb_eq a b : styp_eqb a b = true <-> a = b.
  Proof.
    destruct a as [m|s], b as [n|r]; cbn; split; intros H; try discriminate.
    - apply ntype_eqb_eq in H. congruence.
    - injection H as ->. apply ntype_eqb_eq. reflexivity.
    - apply Z.eqb_eq in H. congruence.
    - injection H as ->. apply Z.eqb_refl.
  Qed.
  Lemma sclass_type v w : stypeOf M v = stypeOf M w -> sclass M t v = sclass M t w.
  Proof. destruct v as [[b|z|p]|ty s], w as [[b'|z'|p']|ty' s']; cbn; intros H; try discriminate; try reflexivity. injection H as ->. reflexivity. Qed.

  Lemma scan_spec v0 rest :
    fst (scan M t v0 rest) = forallb (fun v => styp_eqb (stypeOf M v) (stypeOf M v0)) rest /\
    match snd (scan M t v0 rest) with
    | None => exists v, In v (v0 :: rest) /\ sclass M t v = None
    | Some (c, m) => In (VNum m) (v0 :: rest) /\ sclass M t (VNum m) = Some c /\
                     forall v, In v (v0 :: rest) -> exists c', sclass M t v = Some c' /\ c' <= c
    end.
  Proof.
    unfold scan.
    set (f := fun '(same, max) v => _).
    assert (G : forall l s0 mx pre, 
      (match mx with None => exists v, In v pre /\ sclass M t v = None
       | Some (c, m) => In (VNum m) pre /\ sclass M t (VNum m) = Some c /\ forall v, In v pre -> exists c', sclass M t v = Some c' /\ c' <= c end) ->
      fst (fold_left f l (s0, mx)) = s0 && forallb (fun v => styp_eqb (stypeOf M v) (stypeOf M v0)) l /\
      match snd (fold_left f l (s0, mx)) with
      | None => exists v, In v (pre ++ l) /\ sclass M t v = None
      | Some (c, m) => In (VNum m) (pre ++ l) /\ sclass M t (VNum m) = Some c /\ forall v, In v (pre ++ l) -> exists c', sclass M t v = Some c' /\ c' <= c
      end).
    { induction l as [|v l IH]; intros s0 mx pre H; cbn [fold_left forallb].
      - rewrite app_nil_r, Bool.andb_true_r. split; [reflexivity|exact H].
      - change (f (s0, mx) v) with (s0 && styp_eqb (stypeOf M v) (stypeOf M v0),
         match mx with None => None | Some (c, n) => match sclass M t v, v with Some c', VNum n' => if c <? c' then Some (c', n') else Some (c, n) | _, _ => None end end).
        rewrite Bool.andb_assoc. replace (pre ++ v :: l) with ((pre ++ [v]) ++ l) by (rewrite <- app_assoc; reflexivity). apply IH.
        destruct mx as [(c, n)|].
        + destruct H as (H1 & H2 & H3). destruct (sclass M t v) as [c'|] eqn:Ec.
          * destruct v as [n'|ty s]; [|discriminate Ec]. destruct (Z.ltb_spec c c').
            -- split; [apply in_or_app; right; left; reflexivity|]. split; [exact Ec|]. intros w Hw. apply in_app_or in Hw. destruct Hw as [Hw|[<-|[]]].
               ++ destruct (H3 w Hw) as (c2 & E2 & L2). exists c2. split; [exact E2|lia].
               ++ exists c'. split; [exact Ec|lia].
            -- split; [apply in_or_app; left; exact H1|]. split; [exact H2|]. intros w Hw. apply in_app_or in Hw. destruct Hw as [Hw|[<-|[]]]; [apply H3; exact Hw|].
               exists c'. split; [exact Ec|lia].
          * exists v. split; [apply in_or_app; right; left; reflexivity|exact Ec].
        + destruct H as (w & Hw & Hc). exists w. split; [apply in_or_app; left; exact Hw|exact Hc]. }
    destruct (G rest true (match sclass M t v0, v0 with Some c, VNum n => Some (c, n) | _, _ => None end) [v0]) as (G1 & G2).
    - destruct (sclass M t v0) as [c|] eqn:Ec.
      + destruct v0 as [n|ty s]; [|discriminate Ec]. split; [left; reflexivity|]. split; [exact Ec|]. intros w [<-|[]]. exists c. split; [exact Ec|lia].
      + exists v0. split; [left; reflexivity|exact Ec].
    - cbn [andb app] in G1, G2. split; [exact G1|exact G2].
  Qed.

  Lemma mapM_inj {A B} (f : A -> outcome B) (g : B -> A) (l : list A) :
    (forall v, In v l -> exists b, f v = Ok b /\ g b = v) -> exists r, mapM f l = Ok r /\ map g r = l.
  Proof.
    induction l as [|v l IH]; intros H; [exists []; split; reflexivity|].
    destruct (H v (or_introl eq_refl)) as (b & Hb & Hg). destruct IH as (r & Hr & Hm); [intros w Hw; apply H; right; exact Hw|].
    exists (b :: r). cbn [mapM map]. rewrite Hb. cbn [obind]. rewrite Hr. cbn [obind]. split; [reflexivity|congruence].
  Qed.

  Context (hu : ntype -> bool).
  (* values of one type *)
  Definition one_type (vs : list sv) : Prop := forall v w, In v vs -> In w vs -> stypeOf M v = stypeOf M w.
  Lemma one_type_head v0 rest : one_type (v0 :: rest) <-> forallb (fun v => styp_eqb (stypeOf M v) (stypeOf M v0)) rest = true.
  Proof.
    rewrite forallb_forall. split.
    - intros H v Hv. apply styp_eqb_eq. apply H; [right; exact Hv|left; reflexivity].
    - intros H. assert (G : forall v, In v (v0 :: rest) -> stypeOf M v = stypeOf M v0) by (intros v [<-|Hv]; [reflexivity|apply styp_eqb_eq; apply H; exact Hv]).
      intros v w Hv Hw. rewrite (G v Hv), (G w Hw). reflexivity.
  Qed.

  Lemma reshape_map {A B} (g : A -> B) (l : list A) d : wf (mkArr d (map g l)) -> l <> [] ->
    Reshape (mkArr [zlen l] l) d = Ok (mkArr d l).
  Proof.
    intros (H1 & H2 & H3) Hl. cbn [dims elems] in *. rewrite zlen_map in H3.
    apply (Reshape_self (mkArr d l) (mkArr [zlen l] l)); [|exact Hl|reflexivity]. split; [exact H1|split; [exact H2|exact H3]].
  Qed.
  Lemma uniform_reshape_view vs d :
    one_type vs -> wf (mkArr d vs) -> vs <> [] ->
    exists u, uniform_reshape M hu vs d = Ok u /\ match u with Some r => view r = mkArr d vs /\ isUniform r = true | None => (exists n, In (VNum n) vs /\ hu (typeOf M n) = false) \/ exists ty s, In (VOth ty s) vs end.
  Proof.
    intros H1 Hwf Hne. unfold uniform_reshape.
    destruct vs as [|v0 rest]; [congruence|].
    assert (D : match v0 with VNum n => hu (typeOf M n) = true | _ => True end \/ exists n, v0 = VNum n /\ hu (typeOf M n) = false).
    { destruct v0 as [n|ty s]; [|left; exact Logic.I]. destruct (hu (typeOf M n)) eqn:E; [left; reflexivity|right; exists n; split; [reflexivity|exact E]]. }
    destruct D as [D|(n & -> & D)]; [|rewrite D; cbn [negb]; exists None; split; [reflexivity|left; exists n; split; [left; reflexivity|exact D]]].
    destruct v0 as [[b|z|p]|ty s]; try rewrite D; cbn [negb].
    - destruct (mapM_inj (@toB P) (fun b => VNum (NB b)) (VNum (NB b) :: rest)) as (r & Hr & Hm).
      { intros v Hv. specialize (H1 v _ Hv (or_introl eq_refl)). destruct v as [[x|x|x]|? ?]; try discriminate H1. exists x. split; reflexivity. }
      rewrite Hr. cbn [obind]. rewrite <- Hm in *. rewrite (reshape_map (fun b => VNum (NB b)) r d Hwf) by (intros ->; discriminate). cbn [obind].
      eexists. split; [reflexivity|]. split; reflexivity.
    - destruct (mapM_inj (@toI P) (fun b => VNum (NI b)) (VNum (NI z) :: rest)) as (r & Hr & Hm).
      { intros v Hv. specialize (H1 v _ Hv (or_introl eq_refl)). destruct v as [[x|x|x]|? ?]; try discriminate H1. exists x. split; reflexivity. }
      rewrite Hr. cbn [obind]. rewrite <- Hm in *. assert (Hr0 : r <> []) by (intros ->; discriminate).
      unfold IntReshape. cbn [elems]. destruct r as [|x r']; [congruence|]. rewrite (reshape_map (fun b => VNum (NI b)) (x :: r') d Hwf Hr0). cbn [omap obind].
      eexists. split; [reflexivity|]. split; reflexivity.
    - destruct (mapM_inj (toP M (ptype M p)) (fun b => VNum (NT b)) (VNum (NT p) :: rest)) as (r & Hr & Hm).
      { intros v Hv. specialize (H1 v _ Hv (or_introl eq_refl)). destruct v as [[x|x|x]|? ?]; try discriminate H1. exists x. cbn in *. injection H1 as ->. rewrite Z.eqb_refl. split; reflexivity. }
      rewrite Hr. cbn [obind]. rewrite <- Hm in *. rewrite (reshape_map (fun b => VNum (NT b)) r d Hwf) by (intros ->; discriminate). cbn [obind].
      eexists. split; [reflexivity|]. split; reflexivity.
    - exists None. split; [reflexivity|]. right. exists ty, s. left. reflexivity.
  Qed.

  (* a compact array holds elements of one type *)
  Definition rep_ok (r : rep P) : Prop :=
    (elems (view r) <> [] -> wf (view r)) /\ match r with RNums ty a => Forall (fun p => ptype M p = ty) (elems a) | _ => True end.
  Lemma rep_one_type r : rep_ok r -> isUniform r = true -> one_type (elems (view r)).
  Proof.
    intros (_ & H) Hu. destruct r as [a|l|a|a|a|ty a|]; try discriminate Hu; cbn [view amap elems]; intros v w Hv Hw;
      apply in_map_iff in Hv, Hw; destruct Hv as (x & <- & Hx), Hw as (y & <- & Hy); try reflexivity.
    rewrite Forall_forall in H. cbn. rewrite (H x Hx), (H y Hy). reflexivity.
  Qed.

  Lemma unify_view A : rep_ok A -> A <> REmpty ->
    exists A' ok, Unify M t hu A false = Ok (A', ok) /\ view A' = view A /\ (ok = true <-> one_type (elems (view A))).
  Proof.
    intros Hok Hne. destruct (isUniform A) eqn:Hu.
    { exists A, true. split; [destruct A; try discriminate Hu; reflexivity|]. split; [reflexivity|]. split; [intros _; apply rep_one_type; assumption|reflexivity]. }
    assert (E : Unify M t hu A false =
      match elems (view A) with [] => Ok (A, true) | (v0 :: rest) as vs =>
        let '(same, max) := scan M t v0 rest in
          if negb same && negb false then Ok (A, false) else
          if same then
            match max with
            | Some _ => let* u := uniform_reshape M hu vs (dims (view A)) in match u with None => Ok (A, true) | Some r => Ok (r, true) end
            | None => match v0 with
                | VOth ty _ => if ty =? strT then let* l := mapM (@toS P) vs in Ok (RStrings (mkArr (dims (view A)) l), true) else Ok (A, true)
                | _ => Ok (A, true) end
            end
          else
            match max with
            | None => Ok (A, false)
            | Some (_, m) =>
                match mapM (fun v => match v with VNum n => omap fst (SameType M t n m) | _ => Panic end) vs with
                | Err => Ok (A, false) | Panic => Panic
                | Ok ns => let* u := uniform_reshape M hu (map VNum ns) (dims (view A)) in match u with None => Ok (A, false) | Some r => Ok (r, true) end
                end
            end
      end) by (unfold Unify; rewrite Hu; destruct A; try reflexivity; congruence).
    rewrite E. clear E. destruct (elems (view A)) as [|v0 rest] eqn:Ev.
    { exists A, true. split; [reflexivity|]. split; [reflexivity|]. split; [intros _ v w []|reflexivity]. }
    destruct (scan_spec v0 rest) as (S1 & S2). destruct (scan M t v0 rest) as (same, max). cbn [fst snd] in S1, S2.
    pose proof (one_type_head v0 rest) as HT. rewrite <- S1 in HT. destruct same; cbn [negb andb].
    - assert (H1 : one_type (v0 :: rest)) by (apply HT; reflexivity).
      assert (Hwf : wf (mkArr (dims (view A)) (v0 :: rest))).
      { destruct Hok as (Hw & _). rewrite Ev in Hw. specialize (Hw ltac:(discriminate)). destruct (view A) as (d, e). cbn in *. subst e. exact Hw. }
      assert (Hv : mkArr (dims (view A)) (v0 :: rest) = view A) by (destruct (view A); cbn in *; congruence).
      destruct max as [(c, m)|].
      + destruct (uniform_reshape_view (v0 :: rest) (dims (view A)) H1 Hwf ltac:(discriminate)) as (u & Hu' & Hr). rewrite Hu'. cbn [obind].
        destruct u as [r|].
        * destruct Hr as (Hr & _). exists r, true. split; [reflexivity|]. split; [congruence|]. split; [intros _; exact H1|reflexivity].
        * exists A, true. split; [reflexivity|]. split; [reflexivity|]. split; [intros _; exact H1|reflexivity].
      + destruct v0 as [n|ty s].
        * exists A, true. split; [reflexivity|]. split; [reflexivity|]. split; [intros _; exact H1|reflexivity].
        * destruct (Z.eqb_spec ty strT) as [->|Hty].
          -- destruct (mapM_inj (@toS P) (fun s => VOth strT s) (VOth strT s :: rest)) as (r & Hr & Hm).
             { intros v Hv'. specialize (H1 v _ Hv' (or_introl eq_refl)). destruct v as [n|ty' s']; try discriminate H1. injection H1 as ->. exists s'. split; reflexivity. }
             rewrite Hr. cbn [obind]. eexists. exists true. split; [reflexivity|]. split; [|split; [intros _; exact H1|reflexivity]].
             cbn [view]. unfold amap. cbn [dims elems]. rewrite Hm. exact Hv.
          -- exists A, true. split; [reflexivity|]. split; [reflexivity|]. split; [intros _; exact H1|reflexivity].
    - exists A, false. split; [reflexivity|]. split; [reflexivity|]. symmetry. exact HT.
  Qed.
  Lemma unify_empty up : Unify M t hu REmpty up = Ok (REmpty, false).
  Proof. reflexivity. Qed.

  Lemma finish_view res : (elems res <> [] -> wf res) -> exists r, finish M t hu res = Ok r /\ view r = res.
  Proof.
    intros H. unfold finish. destruct (all_same M (elems res)).
    - destruct (unify_view (RMixed res)) as (A' & ok & E & V & _); [split; [exact H|exact I]|discriminate|]. rewrite E. cbn [obind]. eauto.
    - exists (RMixed res). split; reflexivity.
  Qed.

  (* ---- with uptyping ---- *)
  Definition imports_bottom : Prop := forall n, (forall p, n <> NT p) -> class_of M t (Import t n) = Some 0.
  Lemma same_type_max n m c cm : tower_ok M t -> imports_bottom ->
    sclass M t (VNum n) = Some c -> sclass M t (VNum m) = Some cm -> c <= cm ->
    match SameType M t n m with Ok (n', _) => typeOf M n' = typeOf M m | Err => True | Panic => False end.
  Proof.
    intros Hok Hib Hc Hm Hle.
    destruct (ntype_eqb (typeOf M n) (typeOf M m)) eqn:Et.
    { apply ntype_eqb_eq in Et. rewrite (same_type_eq M t n m Et). exact Et. }
    assert (Hne : typeOf M n <> typeOf M m) by (intros E; apply ntype_eqb_eq in E; congruence).
    destruct m as [b|z|p].
    { cbn in Hm. injection Hm as <-. destruct n as [x|x|q]; cbn in Hc; [exfalso; apply Hne; reflexivity|injection Hc as <-; lia|].
      destruct (assoc (Numbers t) (ptype M q)) as [nu|] eqn:E; [|discriminate]. cbn in Hc. injection Hc as <-.
      pose proof (ok_class _ _ Hok _ _ E) as Hz. apply znth_some_range in Hz. lia. }
    { cbn in Hm. injection Hm as <-. destruct n as [x|x|q]; cbn in Hc; [reflexivity|exfalso; apply Hne; reflexivity|].
      destruct (assoc (Numbers t) (ptype M q)) as [nu|] eqn:E; [|discriminate]. cbn in Hc. injection Hc as <-.
      pose proof (ok_class _ _ Hok _ _ E) as Hz. apply znth_some_range in Hz. lia. }
    pose proof (same_type_general M t Hok n (NT p) Hne ltac:(intros ? ? (? & ?); discriminate) ltac:(intros ? ? (? & ?); discriminate)) as H.
    destruct (SameType M t n (NT p)) as [(n', m')| |]; [|exact I|exact H].
    destruct H as (ca & cb & Hca & Hcb & Hr1 & Hr2 & Hty). cbn [imported] in *.
    cbn [sclass] in Hm. cbn [class_of] in Hcb. assert (cb = cm) by congruence. subst cb.
    assert (Hca' : ca <= cm).
    { pose proof (ok_class _ _ Hok) as Hk. destruct n as [x|x|q].
      - cbn [imported] in Hca. rewrite (Hib (NB x)) in Hca by discriminate. injection Hca as <-.
        destruct (assoc (Numbers t) (ptype M p)) as [nu|] eqn:E; [|discriminate]. cbn in Hm. injection Hm as <-. apply Hk in E. apply znth_some_range in E. lia.
      - cbn [imported] in Hca. rewrite (Hib (NI x)) in Hca by discriminate. injection Hca as <-.
        destruct (assoc (Numbers t) (ptype M p)) as [nu|] eqn:E; [|discriminate]. cbn in Hm. injection Hm as <-. apply Hk in E. apply znth_some_range in E. lia.
      - cbn [imported class_of] in Hca. cbn [sclass] in Hc. assert (ca = c) by congruence. lia. }
    replace (Z.to_nat (ca - cm)) with 0%nat in Hr2 by lia. apply raised_0_inv in Hr2. rewrite Hty, <- Hr2. reflexivity.
  Qed.
  Lemma unify_up A : tower_ok M t -> imports_bottom -> rep_ok A -> A <> REmpty ->
    exists A' ok, Unify M t hu A true = Ok (A', ok) /\ (ok = false -> A' = A) /\
      (ok = true -> view A' = view A \/
         exists m, In (VNum m) (elems (view A)) /\ dims (view A') = dims (view A) /\
           Forall2 (fun v v' => exists n n' m', v = VNum n /\ v' = VNum n' /\ SameType M t n m = Ok (n', m') /\ typeOf M n' = typeOf M m) (elems (view A)) (elems (view A'))).
  Proof.
    intros Hok Hib HA Hne. destruct (isUniform A) eqn:Hu.
    { exists A, true. split; [destruct A; try discriminate Hu; reflexivity|]. split; [discriminate|]. intros _. left. reflexivity. }
    destruct (unify_view A HA Hne) as (B & okB & EB & VB & OB).
    unfold Unify in *. rewrite Hu in *.
    destruct A as [a|l|a|a|a|ty a|]; try discriminate Hu; try congruence; clear Hu Hne.
    all: match goal with |- context [elems (view ?A)] => set (AA := A) in * end.
    all: destruct (elems (view AA)) as [|v0 rest] eqn:Ev;
      [exists AA, true; split; [reflexivity|]; split; [discriminate|]; intros _; left; reflexivity|].
    all: pose proof (scan_spec v0 rest) as (S1 & S2); destruct (scan M t v0 rest) as (same, max); cbn [fst snd] in S1, S2.
    all: destruct same; cbn [negb andb] in *; [exists B, okB; split; [exact EB|]; split; [|intros _; left; exact VB]; intros ->; exfalso; assert (false = true) by (apply OB; apply one_type_head; rewrite <- S1; reflexivity); discriminate|].
    all: destruct max as [(c, m)|]; [|exists AA, false; split; [reflexivity|]; split; [reflexivity|discriminate]].
    all: destruct S2 as (S2 & S3 & S4).
    all: assert (HP : match mapM (fun v => match v with VNum n => omap fst (SameType M t n m) | _ => Panic end) (v0 :: rest) with
        | Ok ns => Forall2 (fun v n' => exists n m', v = VNum n /\ SameType M t n m = Ok (n', m') /\ typeOf M n' = typeOf M m) (v0 :: rest) ns
        | Err => True | Panic => False end) by
      (clear - S3 S4 Hok Hib; induction (v0 :: rest) as [|v l IH]; [constructor|]; cbn [mapM];
       destruct (S4 v (or_introl eq_refl)) as (cv & Ecv & Lcv); destruct v as [n|ty s]; [|discriminate Ecv];
       pose proof (same_type_max n m cv c Hok Hib Ecv S3 Lcv) as Hs;
       destruct (SameType M t n m) as [(n', m')| |] eqn:Es; cbn [omap fst obind]; [|exact I|contradiction];
       specialize (IH (fun v Hv => S4 v (or_intror Hv)));
       destruct (mapM _ l) as [ns| |]; cbn [obind]; [|exact I|contradiction];
       constructor; [exists n, m'; repeat split; assumption|exact IH]).
    all: destruct (mapM _ (v0 :: rest)) as [ns| |]; [|exists AA, false; split; [reflexivity|]; split; [reflexivity|discriminate]|contradiction].
    all: assert (H1 : one_type (map VNum ns)) by
      (intros v w Hv Hw; apply in_map_iff in Hv, Hw; destruct Hv as (x & <- & Hx), Hw as (y & <- & Hy);
       assert (Hall : forall z, In z ns -> typeOf M z = typeOf M m) by
         (clear - HP; induction HP as [|v n' l ns (n & m' & _ & _ & Hty) _ IH]; [intros z []|intros z [<-|Hz]; [exact Hty|apply IH; exact Hz]]);
       cbn [stypeOf]; rewrite (Hall x Hx), (Hall y Hy); reflexivity).
    all: assert (Hwf : wf (mkArr (dims (view AA)) (map (@VNum P) ns))) by
      (destruct HA as (Hw & _); rewrite Ev in Hw; specialize (Hw ltac:(discriminate)); destruct Hw as (W1 & W2 & W3);
       split; [exact W1|split; [exact W2|]]; cbn [dims elems]; rewrite zlen_map, <- (Forall2_zlen _ _ _ HP), <- Ev; exact W3).
    all: destruct (uniform_reshape_view (map VNum ns) (dims (view AA)) H1 Hwf) as (u & Hu' & Hr);
      [intros E; destruct ns; [inversion HP|discriminate]|]; rewrite Hu'; cbn [obind];
      destruct u as [r|]; [|exists AA, false; split; [reflexivity|]; split; [reflexivity|discriminate]];
      destruct Hr as (Hr & _); exists r, true; split; [reflexivity|]; split; [discriminate|]; intros _; right; exists m;
      rewrite Hr; cbn [dims elems]; split; [exact S2|]; split; [reflexivity|].
    all: clear - HP; induction HP as [|v n' l ns (n & m' & -> & Hs & Hty) _ IH]; cbn [map]; constructor; [exists n, n', m'; repeat split; assumption|exact IH].
  Qed.
End UNI.
