(* P_Heap3.v -- what every history of assignments keeps. *)
From Verif Require Import Base Eff M_Heap S_Heap P_Heap P_Heap2.
From Coq Require Import List ZArith Bool Lia.
Import ListNotations.

Section P.
  Context {A U K : Type} {BR : ByRef U} (conv : U -> A -> option A) (origin : Z) (K_dec : forall a b : K, {a = b} + {a <> b}).
  Local Notation hstate := (hstate A U K). Local Notation action := (action A U K).
  Local Notation exec := (exec conv origin K_dec). Local Notation history := (history conv origin K_dec).
  Local Notation hval := (hval A). Local Notation heap := (heap A U). Local Notation tree := (tree A U).
  Implicit Types (s : hstate) (a : action) (k : K) (v w : hval) (t : tree) (ls : list nat).
  Open Scope nat_scope.
  Definition values s : Prop := forall k v, vars s k = Some v -> is_value (hp s) v.

  Lemma setvar_same s k (v : option hval) : vars (setvar K_dec s k v) k = v.
  Proof. cbn. destruct (K_dec k k); congruence. Qed.
  Lemma setvar_other s k (v : option hval) k' : k' <> k -> vars (setvar K_dec s k v) k' = vars s k'.
  Proof. intros N. cbn. destruct (K_dec k k'); congruence. Qed.

  (* one action that is not an indexed assignment only extends the heap *)
  Lemma step_plain s a o s' : uses s a -> updates a = None -> exec a s = (o, s') ->
    (exists h1, hp s' = hp s ++ h1) /\
    (forall k, target a <> Some k -> vars s' k = vars s k) /\
    match a with
    | Assign k R => o = Ok tt /\ exists v t ls lR, vars s' k = Some v /\ reads (hp s) R t lR /\ reads (hp s') v t ls /\ forall x, In x ls -> length (hp s) <= x
    | Pass k v => vars s' k = Some v
    | Return k => vars s' k = None
    | _ => True
    end.
  Proof.
    intros HU HN E. destruct a as [c|k R|k v|k|k f ids ds R|k key]; try discriminate; cbn in E.
    - injection E as <- <-. cbn. split; [eexists; reflexivity|]. split; auto.
    - destruct HU as (t & ls & HR). destruct (Copy_ok _ _ _ _ HR) as (h1 & v & lv & E1 & Rv & _ & Fv).
      unfold in_heap in E. rewrite E1 in E. injection E as <- <-. split; [exists h1; reflexivity|]. split.
      + intros k' Hk. cbn [target] in Hk. rewrite setvar_other by congruence. reflexivity.
      + split; [reflexivity|]. exists v, t, lv, ls. rewrite setvar_same. auto.
    - injection E as <- <-. split; [exists []; cbn; rewrite app_nil_r; reflexivity|]. split.
      + intros k' Hk. cbn [target] in Hk. apply setvar_other. congruence.
      + apply setvar_same.
    - injection E as <- <-. split; [exists []; cbn; rewrite app_nil_r; reflexivity|]. split.
      + intros k' Hk. cbn [target] in Hk. apply setvar_other. congruence.
      + apply setvar_same.
  Qed.
  (* an indexed assignment changes the cells of its variable *)
  Definition within (h : heap) ls (x : nat) : Prop := In x ls \/ length h <= x.
  Lemma step_update s a o s' k w t ls : uses s a -> updates a = Some k -> exec a s = (o, s') ->
    vars s k = Some w -> reads (hp s) w t ls ->
    change (length (hp s)) (within (hp s) ls) (hp s) (hp s') /\
    (forall k', k' <> k -> vars s' k' = vars s k') /\
    exists w' t' ls', vars s' k = Some w' /\ reads (hp s') w' t' ls' /\ forall x, In x ls' -> within (hp s) ls x.
  Proof.
    intros HU HN E Hw Hr. set (W := within (hp s) ls).
    assert (Hb : forall x, length (hp s) <= x -> W x) by (intros x Hx; right; exact Hx).
    assert (Ho : owned (hp s) W w). { exists t, ls. split; [exact Hr|]. intros x Hx. left. exact Hx. }
    destruct a as [c|k0 R|k0 v|k0|k0 f ids ds R|k0 key]; try discriminate; cbn [updates] in HN; injection HN as ->; cbn [M_Heap.exec] in E; rewrite Hw in E.
    - destruct HU as [HR HF]. unfold in_heap at 1 in E.
      destruct (assignValue conv origin f w ids ds R (hp s)) as [o1 h1] eqn:E1.
      assert (HF' : fok f) by (destruct f; [exact HF|exact Logic.I]).
      destruct (assignValue_ok conv origin (length (hp s)) W Hb f (hp s) w ids ds R o1 h1 (le_n _) HF' Ho HR E1) as [C Hv].
      pose proof (change_owned _ W _ _ _ Hb C Ho) as Ho1.
      assert (Hkeep : forall o2 s2, hp s2 = h1 -> vars s2 = vars s -> (o, s') = (o2, s2) ->
        change (length (hp s)) W (hp s) (hp s') /\ (forall k', k' <> k -> vars s' k' = vars s k') /\
        exists w' t' ls', vars s' k = Some w' /\ reads (hp s') w' t' ls' /\ forall x, In x ls' -> W x).
      { intros o2 s2 H1 H2 H3. injection H3 as -> ->. rewrite H1, H2. split; [exact C|]. split; [reflexivity|].
        destruct Ho1 as (t1 & l1 & R1 & W1). exists w, t1, l1. auto. }
      destruct o1 as [[v|]| |].
      + destruct (Hv v eq_refl) as (tv & lv & Rv). destruct (Copy_ok _ _ _ _ Rv) as (h2 & v' & lv' & E2 & Rv' & _ & Fv').
        unfold in_heap in E. cbn [hp] in E. rewrite E2 in E. injection E as <- <-. cbn [hp setvar vars].
        split; [eapply change_trans; [exact C|apply change_ext]|]. split.
        * intros k' Hk. cbn. destruct (K_dec k k'); congruence.
        * exists v', tv, lv'. split; [cbn; destruct (K_dec k k); congruence|]. split; [exact Rv'|].
          intros x Hx. apply Hb. apply Fv' in Hx. pose proof (ch_len _ _ _ _ C). lia.
      + eapply Hkeep; [| |symmetry; exact E]; reflexivity.
      + eapply Hkeep; [| |symmetry; exact E]; reflexivity.
      + eapply Hkeep; [| |symmetry; exact E]; reflexivity.
    - destruct w as [at0|l].
      + injection E as <- <-. split; [apply change_refl|]. split; [reflexivity|]. destruct Ho as (t1 & l1 & R1 & W1). exists (HAtom at0), t1, l1. auto.
      + unfold in_heap in E. destruct (dnew l key (hp s)) as [o1 h1] eqn:E1.
        assert (C : change (length (hp s)) W (hp s) h1) by (eapply (dnew_ok conv); [exact Hb|apply le_n|exact Ho|exact E1]).
        pose proof (change_owned _ W _ _ _ Hb C Ho) as (t1 & l1 & R1 & W1).
        assert (hp s' = h1 /\ vars s' = vars s) as [H1 H2] by (destruct o1; injection E as <- <-; auto).
        rewrite H1, H2. split; [exact C|]. split; [reflexivity|]. exists (HRef l), t1, l1. auto.
  Qed.
  Lemma step_none s a o s' k : updates a = Some k -> vars s k = None -> exec a s = (o, s') -> s' = s.
  Proof.
    intros HN Hk E. destruct a; try discriminate; cbn [updates] in HN; injection HN as ->; cbn [M_Heap.exec] in E; rewrite Hk in E; injection E as <- <-; reflexivity.
  Qed.
  Lemma some_or_none s k : (exists w, vars s k = Some w) \/ vars s k = None.
  Proof. destruct (vars s k) as [w|]; [left; exists w|right]; reflexivity. Qed.
  (* which values an action keeps *)
  Definition apart (h : heap) v w : Prop := forall t ls t' ls' x, reads h v t ls -> reads h w t' ls' -> In x ls -> In x ls' -> False.
  Lemma step_keep s a o s' v t ls : values s -> uses s a -> exec a s = (o, s') -> reads (hp s) v t ls ->
    (forall k w, updates a = Some k -> vars s k = Some w -> apart (hp s) v w) -> reads (hp s') v t ls.
  Proof.
    intros HV HU E R HA. destruct (updates a) as [k|] eqn:Ea.
    - destruct (some_or_none s k) as [(w & Hw)|Hw].
      + destruct (HV _ _ Hw) as (tw & lw & Rw). destruct (step_update _ _ _ _ _ _ _ _ HU Ea E Hw Rw) as (C & _).
        apply (proj1 (reads_frame (hp s) (hp s')) _ _ _ R). intros x Hx. pose proof (proj1 (reads_lt (hp s)) _ _ _ R _ Hx) as Hl.
        apply (ch_frame _ _ _ _ C _ Hl). intros [Hi|Hi]; [|lia]. exact (HA k w eq_refl Hw _ _ _ _ _ R Rw Hx Hi).
      + rewrite (step_none _ _ _ _ _ Ea Hw E). exact R.
    - destruct (step_plain _ _ _ _ HU Ea E) as ((h1 & ->) & _). apply reads_ext, R.
  Qed.
  Lemma step_values s a o s' : values s -> uses s a -> exec a s = (o, s') -> values s'.
  Proof.
    intros HV HU E. destruct (updates a) as [k|] eqn:Ea.
    - destruct (some_or_none s k) as [(w & Hw)|Hw]; [|rewrite (step_none _ _ _ _ _ Ea Hw E); exact HV].
      destruct (HV _ _ Hw) as (tw & lw & Rw). destruct (step_update _ _ _ _ _ _ _ _ HU Ea E Hw Rw) as (C & Hsame & w' & t' & l' & Hw' & Rw' & _).
      intros k' v Hv. destruct (K_dec k' k) as [->|N].
      + rewrite Hw' in Hv. injection Hv as <-. exists t', l'. exact Rw'.
      + rewrite (Hsame _ N) in Hv. eapply change_value; [exact C|]. eapply HV, Hv.
    - destruct (step_plain _ _ _ _ HU Ea E) as ((h1 & Eh) & Hsame & Hk). intros k v Hv.
      assert (Hold : target a <> Some k -> is_value (hp s') v).
      { intros N. rewrite (Hsame _ N) in Hv. rewrite Eh. apply is_value_ext. eapply HV, Hv. }
      destruct a as [c|k0 R|k0 v0|k0|k0 f ids ds R|k0 key]; try discriminate.
      + apply Hold. discriminate.
      + destruct (K_dec k k0) as [->|N]; [|apply Hold; cbn [target]; congruence].
        destruct Hk as (_ & v1 & t1 & l1 & lR & H1 & _ & H2 & _). rewrite H1 in Hv. injection Hv as <-. exists t1, l1. exact H2.
      + destruct (K_dec k k0) as [->|N]; [|apply Hold; cbn [target]; congruence].
        rewrite Hk in Hv. injection Hv as <-. rewrite Eh. apply is_value_ext, HU.
      + destruct (K_dec k k0) as [->|N]; [|apply Hold; cbn [target]; congruence]. congruence.
  Qed.
  Lemma history_values s acts s' : history s acts s' -> values s -> values s'.
  Proof. induction 1 as [|s a o s1 acts s' HU E _ IH]; [auto|]. intros HV. apply IH. eapply step_values; eassumption. Qed.
  Lemma history_app s acts1 s1 acts2 s2 : history s acts1 s1 -> history s1 acts2 s2 -> history s (acts1 ++ acts2) s2.
  Proof. induction 1; cbn; intros; [assumption|]. econstructor; eauto. Qed.
  Lemma initial_values : values initial.
  Proof. intros k v Hv. discriminate. Qed.

  (* the variables that are not arguments have no cells in common *)
  Definition separate (P : K -> Prop) s : Prop :=
    forall k k' v v', k <> k' -> ~ P k -> ~ P k' -> vars s k = Some v -> vars s k' = Some v' -> apart (hp s) v v'.
  Lemma apart_of h v w t ls t' ls' : reads h v t ls -> reads h w t' ls' -> (forall x, In x ls -> In x ls' -> False) -> apart h v w.
  Proof.
    intros R R' D t1 l1 t2 l2 x R1 R2 H1 H2. destruct (proj1 (reads_det h) _ _ _ R _ _ R1) as [-> ->]. destruct (proj1 (reads_det h) _ _ _ R' _ _ R2) as [-> ->]. eauto.
  Qed.
  Lemma apart_sym h v w : apart h v w -> apart h w v.
  Proof. intros D t ls t' ls' x R R' H1 H2. exact (D _ _ _ _ _ R' R H2 H1). Qed.
  Lemma apart_ext h h1 v w : is_value h v -> is_value h w -> apart h v w -> apart (h ++ h1) v w.
  Proof.
    intros (t & ls & R) (t' & ls' & R') D. eapply apart_of; [apply reads_ext, R|apply reads_ext, R'|]. intros x. exact (D _ _ _ _ _ R R').
  Qed.
  Lemma apart_fresh h h1 v w t ls : is_value h v -> reads (h ++ h1) w t ls -> (forall x, In x ls -> length h <= x) -> apart (h ++ h1) v w.
  Proof.
    intros (t' & ls' & R) Rw F. eapply apart_of; [apply reads_ext, R|exact Rw|]. intros x H1 H2. apply F in H2. apply (proj1 (reads_lt h) _ _ _ R) in H1. lia.
  Qed.
  Lemma step_separate P s a o s' : values s -> uses s a -> exec a s = (o, s') -> separate P s -> (forall k, updates a = Some k -> ~ P k) ->
    separate (params a P) s'.
  Proof.
    intros HV HU E HS HP. destruct (updates a) as [k|] eqn:Ea.
    - assert (Hpar : params a P = P) by (destruct a; try discriminate; reflexivity). rewrite Hpar.
      destruct (some_or_none s k) as [(w & Hw)|Hw]; [|rewrite (step_none _ _ _ _ _ Ea Hw E); exact HS].
      destruct (HV _ _ Hw) as (tw & lw & Rw). destruct (step_update _ _ _ _ _ _ _ _ HU Ea E Hw Rw) as (C & Hsame & w' & t' & l' & Hw' & Rw' & Fw').
      assert (Hmix : forall k' v', k' <> k -> ~ P k' -> vars s' k' = Some v' -> apart (hp s') v' w').
      { intros k' v' N NP Hv'. rewrite (Hsame _ N) in Hv'. destruct (HV _ _ Hv') as (t1 & l1 & R1).
        pose proof (HS k' k _ _ N NP (HP k eq_refl) Hv' Hw) as D.
        assert (R1' : reads (hp s') v' t1 l1).
        { eapply step_keep; try eassumption. intros k1 w1 Hk1 Hw1. rewrite Ea in Hk1. injection Hk1 as <-. rewrite Hw in Hw1. injection Hw1 as <-. exact D. }
        eapply apart_of; [exact R1'|exact Rw'|]. intros x H1 H2. apply Fw' in H2 as [H2|H2].
        - exact (D _ _ _ _ _ R1 Rw H1 H2).
        - apply (proj1 (reads_lt (hp s)) _ _ _ R1) in H1. lia. }
      intros k1 k2 v1 v2 N12 N1 N2 H1 H2. destruct (K_dec k1 k) as [->|Nk1].
      + rewrite Hw' in H1. injection H1 as <-. apply apart_sym. eapply Hmix; [|exact N2|exact H2]. congruence.
      + destruct (K_dec k2 k) as [->|Nk2].
        * rewrite Hw' in H2. injection H2 as <-. eapply Hmix; eassumption.
        * rewrite (Hsame _ Nk1) in H1. rewrite (Hsame _ Nk2) in H2.
          destruct (HV _ _ H1) as (ta & la & Ra). destruct (HV _ _ H2) as (tb & lb & Rb).
          assert (Hk : forall kk vv tt ll, kk <> k -> ~ P kk -> vars s kk = Some vv -> reads (hp s) vv tt ll -> reads (hp s') vv tt ll).
          { intros kk vv tt ll Nk NP Hvv Rvv. eapply step_keep; try eassumption. intros k3 w3 Hk3 Hw3. rewrite Ea in Hk3. injection Hk3 as <-.
            rewrite Hw in Hw3. injection Hw3 as <-. eapply (HS kk k); eauto. }
          eapply apart_of; [eapply (Hk k1); eassumption|eapply (Hk k2); eassumption|].
          intros x. exact (HS _ _ _ _ N12 N1 N2 H1 H2 _ _ _ _ _ Ra Rb).
    - destruct (step_plain _ _ _ _ HU Ea E) as ((h1 & Eh) & Hsame & Hk).
      assert (Hold : forall k1 k2 v1 v2, target a <> Some k1 -> target a <> Some k2 -> k1 <> k2 -> ~ P k1 -> ~ P k2 ->
        vars s' k1 = Some v1 -> vars s' k2 = Some v2 -> apart (hp s') v1 v2).
      { intros k1 k2 v1 v2 T1 T2 N12 N1 N2 H1 H2. rewrite (Hsame _ T1) in H1. rewrite (Hsame _ T2) in H2. rewrite Eh.
        apply apart_ext; [eapply HV, H1|eapply HV, H2|]. exact (HS _ _ _ _ N12 N1 N2 H1 H2). }
      intros k1 k2 v1 v2 N12 N1 N2 H1 H2.
      destruct a as [c|k0 R|k0 v0|k0|k0 f ids ds R|k0 key]; try discriminate; cbn [params target] in *.
      + eapply (Hold k1 k2); try eassumption; discriminate.
      + destruct Hk as (_ & vn & tn & ln & lR & Hn & _ & Rn & Fn). rewrite Eh in Rn.
        assert (Hmix : forall kk vv, kk <> k0 -> vars s' kk = Some vv -> apart (hp s') vv vn).
        { intros kk vv Nk Hvv. rewrite (Hsame kk) in Hvv by congruence. rewrite Eh. eapply apart_fresh; [eapply HV, Hvv|exact Rn|exact Fn]. }
        destruct (K_dec k1 k0) as [->|Nk1].
        * rewrite Hn in H1. injection H1 as <-. apply apart_sym. eapply Hmix; [|exact H2]. congruence.
        * destruct (K_dec k2 k0) as [->|Nk2].
          -- rewrite Hn in H2. injection H2 as <-. eapply Hmix; eassumption.
          -- eapply (Hold k1 k2); try eassumption; try congruence; tauto.
      + eapply (Hold k1 k2); try eassumption; try tauto; intros Ek; injection Ek as ->; tauto.
      + destruct (K_dec k1 k0) as [->|Nk1]; [congruence|]. destruct (K_dec k2 k0) as [->|Nk2]; [congruence|].
        eapply (Hold k1 k2); try eassumption; try congruence; tauto.
  Qed.
  Lemma history_separate s acts s' : history s acts s' -> forall P, values s -> separate P s -> respects P acts -> separate (params_after P acts) s'.
  Proof.
    induction 1 as [|s a o s1 acts s' HU E _ IH]; intros P HV HS HR; [exact HS|]. destruct HR as [HR1 HR2]. cbn [params_after]. apply IH.
    - eapply step_values; eassumption.
    - eapply step_separate; eassumption.
    - exact HR2.
  Qed.
  Lemma initial_separate P : separate P initial.
  Proof. intros k k' v v' _ _ _ Hv. discriminate. Qed.
  (* a variable that no action names keeps its value *)
  Lemma history_keep s acts s' : history s acts s' -> forall P k t, values s -> separate P s -> respects P acts -> ~ P k ->
    (forall a, In a acts -> target a <> Some k) -> value_of s k t -> value_of s' k t.
  Proof.
    induction 1 as [|s a o s1 acts s' HU E _ IH]; intros P k t HV HS HR NP HT Hv; [exact Hv|]. destruct HR as [HR1 HR2].
    assert (Ta : target a <> Some k) by (apply HT; left; reflexivity).
    eapply (IH (params a P)).
    - eapply step_values; eassumption.
    - eapply step_separate; eassumption.
    - exact HR2.
    - destruct a; cbn [params target] in *; auto; try tauto. intros [->|Hp]; [congruence|auto].
    - intros a' Ha'. apply HT. right. exact Ha'.
    - destruct Hv as (v & ls & Hv & R). exists v, ls.
      assert (Hsame : vars s1 k = vars s k).
      { destruct (updates a) as [k1|] eqn:Ea.
        - destruct (some_or_none s k1) as [(w & Hw)|Hw]; [|rewrite (step_none _ _ _ _ _ Ea Hw E); reflexivity].
          destruct (HV _ _ Hw) as (tw & lw & Rw). destruct (step_update _ _ _ _ _ _ _ _ HU Ea E Hw Rw) as (_ & Hs & _). apply Hs.
          destruct a; try discriminate; cbn in *; congruence.
        - destruct (step_plain _ _ _ _ HU Ea E) as (_ & Hs & _). apply Hs, Ta. }
      rewrite Hsame. split; [exact Hv|]. eapply step_keep; try eassumption. intros k1 w Hk1 Hw.
      eapply (HS k k1); eauto. intros ->. destruct a; try discriminate; cbn in *; congruence.
  Qed.
  (* a value keeps its tree while no variable that shares cells with it is changed *)
  Lemma history_value s acts s' : history s acts s' -> forall v t ls, values s -> reads (hp s) v t ls ->
    (forall before a after s1 k w, acts = before ++ a :: after -> history s before s1 -> updates a = Some k -> vars s1 k = Some w -> apart (hp s1) v w) ->
    reads (hp s') v t ls.
  Proof.
    induction 1 as [s|s a o s1 acts s' HU E Hh IH]; intros v t ls HV R HA; [exact R|].
    assert (R1 : reads (hp s1) v t ls).
    { eapply step_keep; try eassumption. intros k w Hk Hw. apply (HA [] a acts s k w); auto. constructor. }
    eapply IH; [eapply step_values; eassumption|exact R1|]. intros before a' after s2 k w -> Hh2 Hk Hw.
    apply (HA (a :: before) a' after s2 k w); auto. econstructor; eassumption.
  Qed.
  (* actions on one variable only, whose cells are apart from another value *)
  Lemma history_one s acts s' : history s acts s' -> forall B v t ls, values s -> reads (hp s) v t ls ->
    (forall w, vars s B = Some w -> apart (hp s) v w) ->
    (forall a, In a acts -> (target a = Some B /\ (forall k u, a <> Pass k u)) \/ target a = None) -> reads (hp s') v t ls /\ forall k, k <> B -> vars s' k = vars s k.
  Proof.
    induction 1 as [s|s a o s1 acts s' HU E Hh IH]; intros B v t ls HV R HA HT; [auto|].
    assert (Hk1 : forall k w, updates a = Some k -> vars s k = Some w -> k = B).
    { intros k w Hk Hw. destruct (HT a (or_introl eq_refl)) as [[T _]|T]; destruct a; try discriminate; cbn in *; congruence. }
    assert (R1 : reads (hp s1) v t ls).
    { eapply step_keep; try eassumption. intros k w Hk Hw. rewrite (Hk1 k w Hk Hw) in Hw. auto. }
    assert (HV1 : values s1) by (eapply step_values; eassumption).
    assert (Hnext : (forall w, vars s1 B = Some w -> apart (hp s1) v w) /\ forall k, k <> B -> vars s1 k = vars s k).
    { destruct (updates a) as [k|] eqn:Ea.
      - destruct (some_or_none s k) as [(w & Hw)|Hw].
        + pose proof (Hk1 k w eq_refl Hw) as EkB. subst k. destruct (HV _ _ Hw) as (tw & lw & Rw).
          destruct (step_update _ _ _ _ _ _ _ _ HU Ea E Hw Rw) as (C & Hs & w' & t' & l' & Hw' & Rw' & Fw'). split; [|exact Hs].
          intros w1 Hw1. rewrite Hw' in Hw1. injection Hw1 as <-. eapply apart_of; [exact R1|exact Rw'|]. intros x H1 H2. apply Fw' in H2 as [H2|H2].
          * exact (HA _ Hw _ _ _ _ _ R Rw H1 H2).
          * apply (proj1 (reads_lt (hp s)) _ _ _ R) in H1. lia.
        + rewrite (step_none _ _ _ _ _ Ea Hw E). auto.
      - destruct (step_plain _ _ _ _ HU Ea E) as ((h1 & Eh) & Hs & Hk).
        destruct (HT a (or_introl eq_refl)) as [[T TP]|T].
        + split.
          * intros w Hw. destruct a as [c|k0 R0|k0 v0|k0|k0 f ids ds R0|k0 key]; try discriminate; cbn in T; injection T as ->.
            -- destruct Hk as (_ & vn & tn & ln & lR & Hn & _ & Rn & Fn). rewrite Hn in Hw. injection Hw as <-. rewrite Eh in *.
               eapply apart_fresh; [exists t, ls; exact R|exact Rn|exact Fn].
            -- destruct (TP B v0 eq_refl).
            -- congruence.
          * intros k N. apply Hs. congruence.
        + split; [|intros k N; apply Hs; congruence]. intros w Hw. rewrite (Hs B) in Hw by congruence. rewrite Eh.
          apply apart_ext; [exists t, ls; exact R|eapply HV, Hw|auto]. }
    destruct Hnext as [Hn1 Hn2]. destruct (IH B v t ls HV1 R1 Hn1 (fun a' Ha' => HT a' (or_intror Ha'))) as [G1 G2]. split; [exact G1|].
    intros k N. rewrite G2, Hn2 by exact N. reflexivity.
  Qed.
End P.
