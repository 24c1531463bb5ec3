(* P_Tail.v -- runs without modified assignments (C62), tail calls (C64). *)
From Verif Require Import Base M_Syntax M_Eval S_Eval P_Eval P_Eval2.
From Coq Require Import String List Lia.
Import ListNotations.
Open Scope list_scope.
Open Scope nat_scope.

Section Runs.
  Context {D X : Type} (G : lang D X).
  Local Notation value := (value D). Local Notation st := (st D X). Local Notation M := (M D X). Local Notation task := (task D X).

  Lemma run_interp P n t : le (run P (step G) n t) (interp G n t).
  Proof.
    revert t. induction n as [|n IH]; intros t; [apply le_refl|]. cbn [run interp]. destruct (P t); [apply step_mono, IH|intros s r H; discriminate].
  Qed.
  Lemma run_mono P (stp : (task -> M value) -> task -> M value) n m t : (forall a b t, (forall t, le (a t) (b t)) -> le (stp a t) (stp b t)) -> n <= m -> le (run P stp n t) (run P stp m t).
  Proof.
    intros Hstp. revert m t. induction n as [|n IH]; intros m t H; [intros s r E; discriminate|]. destruct m as [|m]; [lia|]. cbn [run]. destruct (P t); [|apply le_refl]. apply Hstp. intros t'. apply IH. lia.
  Qed.
  Lemma ordinary_guards_mono a b gs ret : (forall t, le (a t) (b t)) -> le (ordinary_guards G a gs ret) (ordinary_guards G b gs ret).
  Proof.
    intros H. revert ret. induction gs as [|[c e] gs IH]; intros ret; [apply le_refl|]. cbn [ordinary_guards]. destruct (_ && _); [apply le_refl|].
    apply le_bind; [apply le_guard_eval, H|]. intros v. destruct v as [v|]; [|apply IH]. destruct v; try apply IH; destruct (isAssignment e); try apply IH; apply le_refl.
  Qed.
  Lemma ordinary_mono a b t : (forall t, le (a t) (b t)) -> le (ordinary_step G a t) (ordinary_step G b t).
  Proof. intros H. destruct t; try (apply step_mono, H). cbn. intros s r0. apply (ordinary_guards_mono a b body _ H). Qed.

  (* plain assignments *)
  Lemma plain_assign self lo l r op ro : plain (X := X) (TCall (FDer op lo ro) l r) = true -> op = assign_op ->
    (exists x, assign_call G self lo l r = mbind (massign G x r None) (fun _ => mret r)) \/
    (exists xs, assign_call G self lo l r = assignVector G self xs r None) \/ (assign_call G self lo l r = mfail).
  Proof.
    intros H ->. cbn [plain] in H. rewrite String.eqb_refl in H. cbn in H. destruct l; [discriminate|]. destruct lo as [lo|]; [|discriminate]. destruct lo as [ | | |f| | |]; try discriminate.
    - right. unfold assign_call, evalAssign. destruct (names l) as [xs|]; [left; exists xs|right]; reflexivity.
    - left. exists x. reflexivity.
    - destruct f; try discriminate. left. exists x. reflexivity.
  Qed.
  Lemma plain_vector self xs R : assignVector G self xs R None = mfail \/ exists vs, forall self', assignVector G self' xs R None = mbind (assign_each G self' xs vs None) (fun _ => mret R).
  Proof.
    unfold assignVector. destruct (match l_asVec G R with Some a => a | None => _ end) as [sh vs]. destruct sh as [|n [|? ?]]; try (left; reflexivity).
    destruct (_ && _); [left; reflexivity|]. destruct (Z.eqb n 1); [destruct vs as [|v vs]; [left; reflexivity|]|]; right; eexists; intros self'; reflexivity.
  Qed.

  (* the outer frames stay as they are *)
  Definition keeps_outer (s s' : st) : Prop := length (envs s') = length (envs s) /\ tl (envs s') = tl (envs s).
  Lemma ko_envs (s s' : st) : pkgs s' = pkgs s -> envs s' = envs s -> keeps_outer s s'. Proof. intros _ E. unfold keeps_outer. rewrite E. split; reflexivity. Qed.
  Lemma ko_trans a b c : keeps_outer a b -> keeps_outer b c -> keeps_outer a c. Proof. intros [H1 H2] [H3 H4]. split; congruence. Qed.
  Lemma ko_top s g : keeps_outer s (with_envs s (upd_height (envs s) (length (envs s) - 1) g)).
  Proof. unfold keeps_outer. cbn [envs with_envs]. rewrite upd_height_top. destruct (envs s); split; reflexivity. Qed.
  Lemma ko_env_all s s' vars : keeps_outer (with_envs s (vars :: envs s)) s' -> skipn (length (envs s') - length (envs s)) (envs s') = envs s.
  Proof. intros [L H]. cbn in L, H. destruct (envs s') as [|f e]; [discriminate|]. cbn [length tl] in *. replace (S (length e) - length (envs s)) with 1 by lia. exact H. Qed.
  Lemma ko_env s s' vars : keeps_outer (with_envs s (vars :: envs s)) s' -> keeps_outer s (with_envs s' (skipn (length (envs s') - length (envs s)) (envs s'))).
  Proof. intros H. pose proof (ko_env_all _ _ vars H) as Q. split; cbn; rewrite Q; reflexivity. Qed.
  Lemma run_outer n t : mk keeps_outer (run plain (step G) n t).
  Proof.
    revert t. induction n as [|n IH]; intros t; [intros s o s' H; discriminate|]. cbn [run]. destruct (plain t) eqn:HP; [|intros s o s' H; discriminate].
    apply (mk_step_but G keeps_outer ko_envs ko_trans ko_top ko_env); [exact IH|]. intros op lo ro l r -> Ho.
    destruct (plain_assign (run plain (step G) n) lo l r op ro HP Ho) as [(x & ->)|[(xs & ->)| ->]].
    - apply (mk_bind keeps_outer ko_trans); [apply (mk_assign_top G keeps_outer ko_envs ko_top)|intros; apply (mk_ret keeps_outer ko_envs)].
    - destruct (plain_vector (run plain (step G) n) xs r) as [->|(vs & E)]; [|rewrite E; clear E]; [apply (mk_fail keeps_outer ko_envs)|].
      apply (mk_bind keeps_outer ko_trans); [|intros; apply (mk_ret keeps_outer ko_envs)]. revert vs.
      induction xs as [|x xs IHx]; intros vs; [apply (mk_ret keeps_outer ko_envs)|]. destruct vs as [|v vs]; [apply (mk_fail keeps_outer ko_envs)|].
      apply (mk_bind keeps_outer ko_trans); [apply (mk_assign_top G keeps_outer ko_envs ko_top)|]. intros _. apply IHx.
    - apply (mk_fail keeps_outer ko_envs).
  Qed.
  Lemma in_env_outer n vars t : forall s o s', in_env vars (run plain (step G) n t) s = Some (o, s') -> envs s' = envs s.
  Proof.
    intros s o s' E. unfold in_env in E. destruct (run _ _ _ _ _) as [[o1 s1]|] eqn:E1; [|discriminate]. injection E as <- <-. cbn. apply (ko_env_all _ _ vars). eapply run_outer, E1.
  Qed.
End Runs.

(* Two stacks: in the second one a frame of the first one may be a group of frames. *)
Section Rel.
  Context {D X : Type} (G : lang D X).
  Local Notation value := (value D). Local Notation st := (st D X). Local Notation M := (M D X). Local Notation task := (task D X).
  Local Notation frame := (frame D).
  Fixpoint look (fs : list frame) (x : name) : option value :=
    match fs with [] => None | f :: fs' => match fget f x with Some v => Some v | None => look fs' x end end.
  Definition group (i : nat * option value) (f : frame) (fs : list frame) : Prop :=
    length fs = fst i /\ fs <> [] /\ fget f Nabla = snd i /\ fget (hd [] fs) Nabla = snd i /\ fget (hd [] fs) Alpha = fget f Alpha /\
    (forall x, look fs x = fget f x) /\ (fst i = 1 -> fs = [f]).
  Inductive Rs : list (nat * option value) -> list frame -> list frame -> Prop :=
  | Rs_nil : Rs [] [] []
  | Rs_cons i f fs ks e e2 : group i f fs -> Rs ks e e2 -> Rs (i :: ks) (f :: e) (fs ++ e2).
  Definition rest (s s2 : st) : Prop := pkgs s = pkgs s2 /\ origin s = origin s2 /\ out s = out s2 /\ ext s = ext s2.
  Definition root1 (ks : list (nat * option value)) : Prop := exists ks' i, ks = ks' ++ [i] /\ fst i = 1.
  Definition R ks (s s2 : st) : Prop := Rs ks (envs s) (envs s2) /\ rest s s2 /\ root1 ks.

  Lemma Rs_find ks e e2 x : Rs ks e e2 -> fst (find_env e x) = fst (find_env e2 x).
  Proof.
    induction 1 as [|i f fs ks e e2 Hg H IH]; [reflexivity|]. destruct Hg as (_ & _ & _ & _ & _ & Hl & _). specialize (Hl x). cbn [find_env].
    assert (Q : fst (find_env (fs ++ e2) x) = match look fs x with Some v => v | None => fst (find_env e2 x) end).
    { clear. induction fs as [|f fs IH]; [reflexivity|]. cbn. destruct (fget f x); [reflexivity|exact IH]. }
    rewrite Q, Hl. destruct (fget f x); [reflexivity|exact IH].
  Qed.
  Lemma R_lookup ks s s2 x : R ks s s2 -> Lookup G s x = Lookup G s2 x.
  Proof.
    intros (H & (H1 & H2 & H3 & H4) & _). unfold Lookup, LookupEnv. destruct x; try apply (Rs_find ks _ _ _ H); try (rewrite ?H2, ?H4; reflexivity).
    rewrite H1. reflexivity.
  Qed.
  Definition nabla_of (s : st) : option value := match envs s with [] | [_] => None | e :: _ => fget e Nabla end.
  Lemma R_nabla ks s s2 : R ks s s2 -> nabla_of s = nabla_of s2.
  Proof.
    intros (H & _ & (ks' & i0 & -> & H0)). unfold nabla_of. destruct ks' as [|i ks'].
    - inversion H as [|i f fs ks e e2 Hg He E1 E2 E3]; subst. inversion He; subst. destruct Hg as (_ & _ & _ & _ & _ & _ & Hg). rewrite (Hg H0). reflexivity.
    - inversion H as [|i' f fs ks e e2 Hg He E1 E2 E3]; subst. clear E2 E3.
      inversion He as [|i' f' fs' ks e0 e20 Hg' He' E1 E2 E3]; subst; [destruct ks'; discriminate|].
      destruct Hg as (_ & Hn & Hna & Hna2 & _). destruct fs as [|f0 fs]; [congruence|]. cbn [hd] in *. destruct Hg' as (_ & Hn' & _). destruct fs' as [|f1 fs']; [congruence|]. cbn. rewrite Hna, <- Hna2.
      destruct fs; reflexivity.
  Qed.
  Lemma group_set i f fs x v : x <> Nabla -> group i f fs -> group i (fset f x v) (match fs with [] => [] | g :: fs' => fset g x v :: fs' end).
  Proof.
    intros Hx (H1 & H2 & H3 & H4 & H5 & H6 & H7). destruct fs as [|g fs]; [congruence|]. cbn [hd] in *. repeat split.
    - exact H1.
    - discriminate.
    - rewrite fget_fset, (name_eqb_neq x Nabla Hx). exact H3.
    - cbn. rewrite fget_fset, (name_eqb_neq x Nabla Hx). exact H4.
    - cbn. rewrite !fget_fset. destruct (name_eqb x Alpha); [reflexivity|exact H5].
    - intros y. cbn. rewrite !fget_fset. destruct (name_eqb x y) eqn:E; [reflexivity|]. exact (H6 y).
    - intros Hi. specialize (H7 Hi). injection H7 as -> ->. reflexivity.
  Qed.
  Lemma Rs_set ks e e2 x v : x <> Nabla -> Rs ks e e2 ->
    Rs ks (upd_height e (length e - 1) (fun f => fset f x v)) (upd_height e2 (length e2 - 1) (fun f => fset f x v)).
  Proof.
    intros Hx H. rewrite !upd_height_top. destruct H as [|i f fs ks e e2 Hg H]; [constructor|].
    pose proof (group_set i f fs x v Hx Hg) as Hg'. destruct Hg as (_ & Hn & _). destruct fs as [|g fs]; [congruence|]. cbn. apply (Rs_cons i _ (fset g x v :: fs)); assumption.
  Qed.
  Lemma R_set ks s s2 x v : x <> Nabla -> R ks s s2 -> R ks (set_top x v s) (set_top x v s2).
  Proof. intros Hx (H & Hr & H1). split; [apply Rs_set; assumption|]. split; [exact Hr|exact H1]. Qed.
  Lemma R_alpha ks s s2 : R ks s s2 ->
    match envs s with f :: _ => fget f Alpha | [] => None end = match envs s2 with f :: _ => fget f Alpha | [] => None end.
  Proof.
    intros (H & _). destruct H as [|i f fs ks e e2 Hg H]; [reflexivity|]. destruct Hg as (_ & Hn & _ & _ & Ha & _). destruct fs as [|g fs]; [congruence|]. cbn in *. congruence.
  Qed.
  Lemma given_top (s : st) : match skipn (length (envs s) - 1 - (length (envs s) - 1)) (envs s) with
      | f :: _ => match fget f Alpha with None | Some VNil => false | Some _ => true end | [] => false end =
    match match envs s with f :: _ => fget f Alpha | [] => None end with None | Some VNil => false | Some _ => true end.
  Proof. replace (length (envs s) - 1 - (length (envs s) - 1)) with 0 by lia. destruct (envs s); reflexivity. Qed.
  Lemma R_assign ks s s2 x v : R ks s s2 ->
    fst (AssignEnv G x v None s) = fst (AssignEnv G x v None s2) /\ R ks (snd (AssignEnv G x v None s)) (snd (AssignEnv G x v None s2)).
  Proof.
    intros H. pose proof (R_alpha _ _ _ H) as HA. pose proof (fun x Hx => R_set ks s s2 x v Hx H) as Hset. unfold set_top in Hset.
    pose proof H as (HR & (H1 & H2 & H3 & H4) & H5).
    unfold AssignEnv. destruct (isVarname x) as [ok isf] eqn:Ev. destruct (negb ok) eqn:Eok; [split; [reflexivity|exact H]|]. rewrite !given_top, <- HA, <- H4.
    destruct x; try (split; [reflexivity|exact H]).
    1,2,4: (destruct (isFn v && _); [split; [reflexivity|exact H]|]; destruct (negb (isFn v) && _); [split; [reflexivity|exact H]|]; split; [reflexivity|apply Hset; discriminate]).
    - destruct (isFn v && _); [split; [reflexivity|exact H]|]; destruct (negb (isFn v) && _); [split; [reflexivity|exact H]|].
      destruct (match match envs s with [] => None | _ => _ end with None => false | _ => _ end); [split; [reflexivity|exact H]|split; [reflexivity|apply Hset; discriminate]].
    - injection Ev as <- <-. discriminate.
    - split; [reflexivity|]. split; [exact HR|]. split; [|exact H5]. repeat split; cbn; congruence.
    - destruct v; try (split; [reflexivity|exact H]). destruct (l_toBool G d); [|split; [reflexivity|exact H]]. split; [reflexivity|]. split; [exact HR|]. split; [|exact H5]. repeat split; cbn; congruence.
    - destruct (l_setpp G v (ext s)); try (split; [reflexivity|exact H]). split; [reflexivity|]. split; [exact HR|]. split; [|exact H5]. repeat split; cbn; congruence.
    - injection Ev as <- <-. discriminate.
  Qed.
  Lemma R_ext_set ks s s2 x : R ks s s2 -> R ks (with_ext s x) (with_ext s2 x).
  Proof. intros (H & (H1 & H2 & H3 & H4) & H5). split; [exact H|]. split; [|exact H5]. repeat split; cbn; congruence. Qed.
  Lemma root1_cons i ks : root1 ks -> root1 (i :: ks).
  Proof. intros (ks' & j & -> & Hj). exists (i :: ks'), j. split; [reflexivity|exact Hj]. Qed.
  Lemma group_one f : group (1, fget f Nabla) f [f].
  Proof. repeat split; cbn; try congruence. intros x. destruct (fget f x); reflexivity. Qed.
  Lemma R_push ks s s2 vars : R ks s s2 -> R ((1, fget vars Nabla) :: ks) (with_envs s (vars :: envs s)) (with_envs s2 (vars :: envs s2)).
  Proof. intros (H & Hr & H1). split; [apply (Rs_cons _ vars [vars] ks _ _ (group_one vars) H)|]. split; [exact Hr|apply root1_cons, H1]. Qed.
  Lemma Rs_length ks e e2 : Rs ks e e2 -> length e = length ks /\ length e2 = list_sum (map fst ks).
  Proof.
    induction 1 as [|i f fs ks e e2 Hg H [IH1 IH2]]; [split; reflexivity|]. destruct Hg as (Hl & _). cbn [length map list_sum fold_right]. rewrite app_length. change (fold_right Nat.add 0 (map fst ks)) with (list_sum (map fst ks)). split; lia.
  Qed.
  (* after a loop: the top group is not related any more *)
  Definition W (k : nat) ks (s s2 : st) : Prop := exists f e fs e2, envs s = f :: e /\ envs s2 = fs ++ e2 /\ length fs = k /\ Rs ks e e2 /\ rest s s2 /\ root1 ks.
  Lemma R_W i ks s s2 : root1 ks -> R (i :: ks) s s2 -> W (fst i) ks s s2.
  Proof.
    intros H1 (H & Hr & _). inversion H as [|i' f fs ks' e e2 Hg He E1 E2 E3]; subst. exists f, e, fs, e2. destruct Hg as (Hl & _). repeat split; try assumption; try (symmetry; assumption); apply Hr.
  Qed.
  Lemma W_pop ks s s2 s' s2' : R ks s s2 -> W 1 ks s' s2' ->
    R ks (with_envs s' (skipn (length (envs s') - length (envs s)) (envs s'))) (with_envs s2' (skipn (length (envs s2') - length (envs s2)) (envs s2'))).
  Proof.
    intros (H & _) (f & e & fs & e2 & E1 & E2 & Hl & He & Hr & Hroot). apply Rs_length in H as [L1 L2]. pose proof He as He'. apply Rs_length in He' as [L3 L4].
    rewrite E1, E2. destruct fs as [|g [|? ?]]; try discriminate. cbn [length app]. replace (S (length e) - length (envs s)) with 1 by lia. replace (S (length e2) - length (envs s2)) with 1 by lia.
    split; [exact He|]. split; [exact Hr|exact Hroot].
  Qed.
  Lemma R_pop ks s s2 s' s2' i : fst i = 1 -> R ks s s2 -> R (i :: ks) s' s2' ->
    R ks (with_envs s' (skipn (length (envs s') - length (envs s)) (envs s'))) (with_envs s2' (skipn (length (envs s2') - length (envs s2)) (envs s2'))).
  Proof. intros Hi H H'. apply W_pop; [exact H|]. rewrite <- Hi. apply R_W; [apply H|exact H']. Qed.
  Lemma Rs_root_one ks s s2 : Forall (fun i => fst i = 1) ks -> Rs ks s s2 -> s = s2.
  Proof.
    intros HF H. induction H as [|i f fs ks e e2 Hg H IH]; [reflexivity|]. inversion HF; subst. destruct Hg as (_ & _ & _ & _ & _ & _ & Hg). rewrite (Hg H2), (IH H3). reflexivity.
  Qed.
  Lemma Rs_diag e : Rs (map (fun f => (1, fget f Nabla)) e) e e.
  Proof. induction e as [|f e IH]; [constructor|]. exact (Rs_cons _ f [f] _ _ _ (group_one f) IH). Qed.
  Lemma R_diag s : envs s <> [] -> R (map (fun f => (1, fget f Nabla)) (envs s)) s s.
  Proof.
    intros H. split; [apply Rs_diag|]. split; [repeat split|]. destruct (exists_last H) as (e & f & ->). exists (map (fun f => (1, fget f Nabla)) e), (1, fget f Nabla). rewrite map_app. split; reflexivity.
  Qed.
  Lemma R_diag_eq e s s2 : R (map (fun f => (1, fget f Nabla)) e) s s2 -> s = s2.
  Proof.
    intros (H & (H1 & H2 & H3 & H4) & _). apply Rs_root_one in H; [|apply Forall_forall; intros i Hi; apply in_map_iff in Hi as (f & <- & _); reflexivity].
    destruct s, s2. cbn in *. congruence.
  Qed.
End Rel.

(* Simulation in both directions (b: which of the two is the first). *)
Section Sim.
  Context {D X : Type} (G : lang D X) (b : bool).
  Local Notation value := (value D). Local Notation st := (st D X). Local Notation M := (M D X). Local Notation task := (task D X).
  Local Notation frame := (frame D).
  Definition RR ks (s s2 : st) : Prop := if b then R ks s s2 else R ks s2 s.
  Definition WW k ks (s s2 : st) : Prop := if b then W k ks s s2 else W k ks s2 s.
  Definition sim {A} (m m2 : M A) : Prop := forall ks s s2 o s', RR ks s s2 -> m s = Some (o, s') -> exists s2', m2 s2 = Some (o, s2') /\ RR ks s' s2'.
  Definition args (l : option value) (r : value) (s : st) : st := set_top Omega r (set_top Alpha (optv l) s).
  Definition wsim (body : list (guard D)) l r (m m2 : M value) : Prop := forall k ks s s2 o s', root1 ks -> RR ((k, Some (VFn (FLam body))) :: ks) (args l r s) (args l r s2) -> m s = Some (o, s') ->
    exists s2', m2 s2 = Some (o, s2') /\ WW k ks s' s2'.
  Lemma RR_ext ks s s2 : RR ks s s2 -> ext s = ext s2.
  Proof. unfold RR. destruct b; intros (_ & (_ & _ & _ & H) & _); congruence. Qed.
  Lemma RR_lookup ks s s2 x : RR ks s s2 -> Lookup G s x = Lookup G s2 x.
  Proof. unfold RR. destruct b; intros H; [|symmetry]; eapply R_lookup, H. Qed.
  Lemma RR_nabla ks s s2 : RR ks s s2 -> nabla_of s = nabla_of s2.
  Proof. unfold RR. destruct b; intros H; [|symmetry]; eapply R_nabla, H. Qed.
  Lemma RR_assign ks s s2 x v : RR ks s s2 ->
    fst (AssignEnv G x v None s) = fst (AssignEnv G x v None s2) /\ RR ks (snd (AssignEnv G x v None s)) (snd (AssignEnv G x v None s2)).
  Proof. unfold RR. destruct b; intros H; [apply R_assign, H|]. destruct (R_assign G ks s2 s x v H) as [H1 H2]. split; [congruence|exact H2]. Qed.
  Lemma RR_ext_set ks s s2 x : RR ks s s2 -> RR ks (with_ext s x) (with_ext s2 x).
  Proof. unfold RR. destruct b; apply R_ext_set. Qed.
  Lemma RR_set ks s s2 x v : x <> Nabla -> RR ks s s2 -> RR ks (set_top x v s) (set_top x v s2).
  Proof. unfold RR. destruct b; apply R_set. Qed.
  Lemma RR_push ks s s2 vars : RR ks s s2 -> RR ((1, fget vars Nabla) :: ks) (with_envs s (vars :: envs s)) (with_envs s2 (vars :: envs s2)).
  Proof. unfold RR. destruct b; apply R_push. Qed.
  Lemma RR_pop ks s s2 s' s2' i : fst i = 1 -> RR ks s s2 -> RR (i :: ks) s' s2' ->
    RR ks (with_envs s' (skipn (length (envs s') - length (envs s)) (envs s'))) (with_envs s2' (skipn (length (envs s2') - length (envs s2)) (envs s2'))).
  Proof. unfold RR. destruct b; intros Hi H H'; eapply R_pop; eassumption. Qed.
  Lemma WW_pop ks s s2 s' s2' : RR ks s s2 -> WW 1 ks s' s2' ->
    RR ks (with_envs s' (skipn (length (envs s') - length (envs s)) (envs s'))) (with_envs s2' (skipn (length (envs s2') - length (envs s2)) (envs s2'))).
  Proof. unfold RR, WW. destruct b; intros H H'; eapply W_pop; eassumption. Qed.
  Lemma RR_W i ks s s2 : root1 ks -> RR (i :: ks) s s2 -> WW (fst i) ks s s2.
  Proof. unfold RR, WW. destruct b; apply R_W. Qed.
  Lemma RR_root ks s s2 : RR ks s s2 -> root1 ks. Proof. unfold RR. destruct b; intros H; apply H. Qed.

  Lemma sim_ret {A} (a : A) : sim (mret a) (mret a). Proof. intros ks s s2 o s' H E. injection E as <- <-. exists s2. split; [reflexivity|exact H]. Qed.
  Lemma sim_fail {A} : sim (@mfail D X A) mfail. Proof. intros ks s s2 o s' H E. injection E as <- <-. exists s2. split; [reflexivity|exact H]. Qed.
  Lemma sim_panic {A} : sim (@mpanic D X A) mpanic. Proof. intros ks s s2 o s' H E. injection E as <- <-. exists s2. split; [reflexivity|exact H]. Qed.
  Lemma sim_bind {A B} (m m2 : M A) (k k2 : A -> M B) : sim m m2 -> (forall a, sim (k a) (k2 a)) -> sim (mbind m k) (mbind m2 k2).
  Proof.
    intros Hm Hk ks s s2 o s' H E. unfold mbind in *. destruct (m s) as [[[a| |] s1]|] eqn:E1; [| | |discriminate]; destruct (Hm _ _ _ _ _ H E1) as (s3 & -> & H3).
    - apply (Hk a _ _ _ _ _ H3 E).
    - injection E as <- <-. exists s3. split; [reflexivity|exact H3].
    - injection E as <- <-. exists s3. split; [reflexivity|exact H3].
  Qed.
  Lemma sim_try {A B} (m m2 : M A) (k k2 : outcome A -> M B) : sim m m2 -> (forall a, sim (k a) (k2 a)) -> sim (mtry m k) (mtry m2 k2).
  Proof.
    intros Hm Hk ks s s2 o s' H E. unfold mtry in *. destruct (m s) as [[[a| |] s1]|] eqn:E1; [| | |discriminate]; destruct (Hm _ _ _ _ _ H E1) as (s3 & -> & H3).
    - apply (Hk _ _ _ _ _ _ H3 E).
    - apply (Hk _ _ _ _ _ _ H3 E).
    - injection E as <- <-. exists s3. split; [reflexivity|exact H3].
  Qed.
  Lemma sim_mmap {A B} (f g : A -> M B) l : (forall a, sim (f a) (g a)) -> sim (mmap f l) (mmap g l).
  Proof. intros H. induction l as [|x l IH]; cbn; [apply sim_ret|]. apply sim_bind; [apply H|]. intros y. apply sim_bind; [exact IH|]. intros. apply sim_ret. Qed.
  Lemma sim_in_env vars (m m2 : M value) : sim m m2 -> sim (in_env vars m) (in_env vars m2).
  Proof.
    intros Hm ks s s2 o s' H E. unfold in_env in *. destruct (m _) as [[o1 s1]|] eqn:E1; [|discriminate]. injection E as <- <-.
    destruct (Hm _ _ _ _ _ (RR_push ks s s2 vars H) E1) as (s3 & -> & H3). eexists. split; [reflexivity|]. eapply RR_pop; [|exact H|exact H3]. reflexivity.
  Qed.
  Lemma RR_args ks l r s s2 : RR ks s s2 -> RR ks (args l r s) (args l r s2).
  Proof. intros H. unfold args. apply RR_set; [discriminate|]. apply RR_set; [discriminate|exact H]. Qed.
  Lemma sim_in_env_loop body l r (m m2 : M value) : wsim body l r m m2 -> sim (in_env [(Nabla, VFn (FLam body))] m) (in_env [(Nabla, VFn (FLam body))] m2).
  Proof.
    intros Hm ks s s2 o s' H E. unfold in_env in *. destruct (m _) as [[o1 s1]|] eqn:E1; [|discriminate]. injection E as <- <-.
    destruct (Hm 1 ks _ _ _ _ (RR_root _ _ _ H) (RR_args _ l r _ _ (RR_push ks s s2 [(Nabla, VFn (FLam body))] H)) E1) as (s3 & -> & H3). eexists. split; [reflexivity|]. eapply WW_pop; [exact H|exact H3].
  Qed.
  Lemma sim_massign x v : sim (massign G x v None) (massign G x v None).
  Proof.
    intros ks s s2 o s' H E. unfold massign in *. pose proof (RR_assign ks s s2 x v H) as [H1 H2]. destruct (AssignEnv G x v None s) as [o1 s1]. destruct (AssignEnv G x v None s2) as [o2 s3].
    cbn in *. injection E as <- <-. exists s3. split; [congruence|exact H2].
  Qed.
  Section Step.
    Context (self self2 : task -> M value).
    Context (Hs : forall t, match t with TLoop body l r => body <> [] -> wsim body l r (self t) (self2 t) | _ => sim (self t) (self2 t) end).
    Ltac sims := repeat first
      [ apply sim_ret | apply sim_fail | apply sim_panic
      | match goal with |- sim (self ?t) _ => exact (Hs t) end
      | apply sim_bind; [|intros ?] | apply sim_try; [|intros ?] | apply sim_mmap; intros ? | apply sim_in_env
      | match goal with |- sim (match ?x with _ => _ end) _ => destruct x end
      | match goal with |- sim (if ?x then _ else _) _ => destruct x end ].
    Lemma sim_handlers hs pick l r : sim (try_handlers self hs pick l r) (try_handlers self2 hs pick l r).
    Proof.
      induction hs as [|h hs IH]; [apply sim_fail|]. intros ks s s2 o s' H E. cbn in *. rewrite <- (RR_ext _ _ _ H). destruct (hto h (ext s) l r) as [[l' r']|]; [exact (Hs (TCode _) _ _ _ _ _ H E)|exact (IH _ _ _ _ _ H E)].
    Qed.
    Lemma sim_operators os lo ro k : sim (try_operators self os lo ro k) (try_operators self2 os lo ro k).
    Proof.
      induction os as [|h hs IH]; [apply sim_fail|]. intros ks s s2 o s' H E. cbn in *. rewrite <- (RR_ext _ _ _ H). destruct (oto h (ext s) lo ro) as [[l' r']|]; [exact (Hs (TCode _) _ _ _ _ _ H E)|exact (IH _ _ _ _ _ H E)].
    Qed.
    Lemma sim_evalOpt e : sim (evalOpt self e) (evalOpt self2 e). Proof. unfold evalOpt, eval. sims. Qed.
    Lemma sim_derived_select op lo ro l r : sim (derived_select G self op lo ro l r) (derived_select G self2 op lo ro l r).
    Proof.
      unfold derived_select. destruct (l_operators G op) as [|o os]; [apply sim_fail|]. destruct (_ && _); [apply sim_fail|].
      apply sim_bind; [apply sim_evalOpt|]. intros lv. apply sim_bind; [destruct (odyadic o); [apply sim_bind; [apply sim_evalOpt|intros; apply sim_ret]|apply sim_ret]|]. intros rv. apply sim_operators.
    Qed.
    Lemma sim_train t l r : sim (train self t l r) (train self2 t l r).
    Proof.
      assert (A : forall a b, sim (atop self a b l r) (atop self2 a b l r)). { intros a b'. unfold atop, asFunc, call. sims. }
      assert (F : forall a b c, sim (fork self a b c l r) (fork self2 a b c l r)). { intros a b' c. unfold fork, asFunc, call. sims. }
      unfold train, eval. destruct t as [|e0 [|e1 [|e2 [|e3 t]]]]; try apply sim_fail; repeat (apply sim_bind; [exact (Hs (TEval _))|intros ?]); auto.
      destruct (Nat.even _); repeat (apply sim_bind; [exact (Hs (TEval _))|intros ?]); auto.
    Qed.
    Lemma sim_guard_eval c e : sim (guard_eval G self c e) (guard_eval G self2 c e).
    Proof. unfold guard_eval, evalOpt, eval. sims. Qed.
    Lemma sim_each xs vs : sim (assign_each G self xs vs None) (assign_each G self2 xs vs None).
    Proof. revert vs. induction xs as [|x xs IH]; intros [|v vs]; cbn [assign_each]; try apply sim_ret; try apply sim_fail. apply sim_bind; [apply sim_massign|intros; apply IH]. Qed.
    Lemma sim_assign_call lo l r op ro : plain (X := X) (TCall (FDer op lo ro) l r) = true -> op = assign_op -> sim (assign_call G self lo l r) (assign_call G self2 lo l r).
    Proof.
      intros H ->. cbn [plain] in H. rewrite String.eqb_refl in H. cbn in H. destruct l; [discriminate|]. destruct lo as [lo|]; [|discriminate].
      assert (Q : forall x, sim (assign_call G self (Some (EVar x)) None r) (assign_call G self2 (Some (EVar x)) None r)).
      { intros x. change (sim (mbind (massign G x r None) (fun _ => mret r)) (mbind (massign G x r None) (fun _ => mret r))). apply sim_bind; [apply sim_massign|intros; apply sim_ret]. }
      destruct lo as [ | | |f| | |]; try discriminate.
      - unfold assign_call, evalAssign. destruct (names l) as [xs|]; [|intros ks s s2 o s' HH E; injection E as <- <-; exists s2; split; [reflexivity|exact HH]].
        change (sim (assignVector G self xs r None) (assignVector G self2 xs r None)). unfold assignVector.
        destruct (match l_asVec G r with Some a => a | None => _ end) as [sh vs]. destruct sh as [|n [|? ?]]; try apply sim_fail.
        destruct (_ && _); [apply sim_fail|]. destruct (Z.eqb n 1); [destruct vs as [|v vs]; [apply sim_fail|]|]; (apply sim_bind; [apply sim_each|intros; apply sim_ret]).
      - apply Q.
      - destruct f; try discriminate. apply Q.
    Qed.
    Lemma sim_step t : plain t = true -> (forall body l r, t <> TLoop body l r) -> sim (step G self t) (step G self2 t).
    Proof.
      intros HP Hnl. destruct t as [e|f l r|c|body l r]; [| | |exfalso; eapply Hnl; reflexivity].
      - destruct e as [d|l|x|f|f l r sel|l|l]; cbn [M_Eval.step]; unfold eval, call.
        + apply sim_ret.
        + destruct l as [|e1 [|e2 l]]; sims.
        + intros ks s s2 o s' H E. rewrite <- (RR_lookup ks s s2 x H). destruct (Lookup G s x); exact (sim_ret _ ks s s2 o s' H E).
        + apply sim_ret.
        + apply sim_bind; [exact (Hs (TEval _))|]. intros rv. apply sim_bind; [sims|]. intros lv.
          destruct (_ && _); [|exact (Hs (TCall _ _ _))]. destruct f; try apply sim_fail; [apply sim_handlers|apply sim_derived_select].
        + sims.
        + sims.
      - destruct f as [p|x|body| |ts|op lo ro|p]; cbn [M_Eval.step].
        + apply sim_handlers.
        + intros ks s s2 o s' H E. rewrite <- (RR_lookup ks s s2 x H). destruct (Lookup G s x); try exact (sim_ret _ ks s s2 o s' H E); try exact (sim_fail ks s s2 o s' H E).
          exact (Hs (TCall _ _ _) ks s s2 o s' H E).
        + destruct body as [|g body]; [apply sim_ret|]. apply (sim_in_env_loop (g :: body) l r). apply (Hs (TLoop (g :: body) l r)). discriminate.
        + intros ks s s2 o s' H E. pose proof (RR_nabla ks s s2 H) as HN. unfold nabla_of in HN.
          assert (E' : match match envs s with [] | [_] => None | e :: _ => fget e Nabla end with Some (VFn (FLam body)) => call self (FLam body) l r s | _ => mfail s end = Some (o, s')).
          { destruct (envs s) as [|e1 [|e2 es]]; try exact E. }
          rewrite HN in E'. clear E HN.
          assert (T : forall res, match match envs s2 with [] | [_] => None | e :: _ => fget e Nabla end with Some (VFn (FLam body)) => call self2 (FLam body) l r s2 | _ => mfail s2 end = res ->
             match envs s2 with [] | [_] => mfail s2 | e :: _ => match fget e Nabla with Some (VFn (FLam body)) => call self2 (FLam body) l r s2 | _ => mfail s2 end end = res).
          { intros res <-. destruct (envs s2) as [|e1 [|e2 es]]; reflexivity. }
          assert (G2 : exists s2', match match envs s2 with [] | [_] => None | e :: _ => fget e Nabla end with Some (VFn (FLam body)) => call self2 (FLam body) l r s2 | _ => mfail s2 end = Some (o, s2') /\ RR ks s' s2').
          { destruct (match envs s2 with [] | [_] => None | e :: _ => fget e Nabla end) as [v|]; [|exact (sim_fail ks s s2 o s' H E')]. destruct v; try exact (sim_fail ks s s2 o s' H E').
            destruct f; try exact (sim_fail ks s s2 o s' H E'). exact (Hs (TCall _ _ _) ks s s2 o s' H E'). }
          destruct G2 as (s2' & E2 & H2). exists s2'. split; [apply T, E2|exact H2].
        + apply sim_train.
        + unfold derived_call. destruct (String.eqb op assign_op) eqn:Eo; [apply String.eqb_eq in Eo; eapply sim_assign_call; [exact HP|exact Eo]|].
          destruct (l_operators G op) as [|o os]; [apply sim_fail|].
          apply sim_bind; [destruct (odyadic o); [apply sim_bind; [apply sim_evalOpt|intros; apply sim_ret]|apply sim_ret]|]. intros rv. apply sim_bind; [apply sim_evalOpt|]. intros lv. apply sim_operators.
        + exact (Hs (TCode _)).
      - destruct c as [o|f l r k|f l r vars k|x k|h]; cbn [M_Eval.step]; unfold call.
        + intros ks s s2 o' s' H E. injection E as <- <-. exists s2. split; [reflexivity|exact H].
        + sims.
        + sims.
        + intros ks s s2 o s' H E. rewrite <- (RR_lookup ks s s2 x H). exact (Hs (TCode _) ks s s2 o s' H E).
        + intros ks s s2 o s' H E. rewrite <- (RR_ext ks s s2 H). destruct (h (ext s)) as [x c]. exact (Hs (TCode _) ks _ _ o s' (RR_ext_set _ _ _ x H) E).
    Qed.
  End Step.
End Sim.

Section Tail.
  Context {D X : Type} (G : lang D X).
  Local Notation value := (value D). Local Notation st := (st D X). Local Notation M := (M D X). Local Notation task := (task D X).
  Local Notation tl_run := (run orderly (step G)).
  Local Notation or_run := (run orderly (ordinary_step G)).

  Lemma or_not_nil self gs ret s o s' : ret <> VNil -> ordinary_guards G self gs ret s = Some (o, s') -> o <> Ok VNil.
  Proof.
    revert ret s. induction gs as [|[c e] gs IH]; intros ret s Hr H.
    - injection H as <- <-. congruence.
    - cbn [ordinary_guards] in H. destruct (_ && _); [injection H as <- <-; discriminate|]. unfold mbind in H. destruct (guard_eval G self c e s) as [[[v| |] s1]|]; [| | |discriminate].
      + destruct v as [v|]; [|eapply IH; [exact Hr|exact H]]. destruct v; try (eapply IH; [exact Hr|exact H]); destruct (isAssignment e); try (refine (IH _ _ _ H); discriminate); injection H as <- <-; discriminate.
      + injection H as <- <-. discriminate.
      + injection H as <- <-. discriminate.
  Qed.
  Lemma group_new k body (f : frame D) fs l r : fget f Nabla = Some (VFn (FLam body)) -> group (k, Some (VFn (FLam body))) f fs ->
    group (S k, Some (VFn (FLam body))) (fset (fset f Alpha l) Omega r) (fset (fset [(Nabla, VFn (FLam body))] Alpha l) Omega r :: fs).
  Proof.
    intros HN (H1 & H2 & H3 & H4 & H5 & H6 & H7). cbn [fst snd] in *. repeat split.
    - cbn. congruence.
    - discriminate.
    - rewrite !fget_fset. cbn. exact HN.
    - cbn. rewrite !fget_fset. reflexivity.
    - intros x. cbn [look]. rewrite !fget_fset. destruct (name_eqb Omega x); [reflexivity|]. destruct (name_eqb Alpha x); [reflexivity|].
      cbn [fget]. destruct (name_eqb Nabla x) eqn:E; [apply name_eqb_eq in E; subst x; symmetry; exact HN|]. apply H6.
    - cbn. intros E. injection E as E. exfalso. destruct fs; [congruence|]. cbn in H1. lia.
  Qed.
  Lemma args_envs l r (s : st) f e : envs s = f :: e -> envs (args l r s) = fset (fset f Alpha (optv l)) Omega r :: e.
  Proof. intros E. unfold args, set_top, with_envs. cbn [envs]. rewrite E, upd_height_top. rewrite upd_height_top. reflexivity. Qed.
  Lemma R_new k body ks l r (s s2 : st) : root1 ks -> R ((k, Some (VFn (FLam body))) :: ks) s s2 ->
    R ((S k, Some (VFn (FLam body))) :: ks) (args l r s) (args l r (with_envs s2 ([(Nabla, VFn (FLam body))] :: envs s2))).
  Proof.
    intros Hk (H & Hr & Hroot). inversion H as [|i f fs ks' e e2 Hg He E1 E2 E3]; subst. symmetry in E2, E3.
    split; [|split; [exact Hr|apply root1_cons, Hk]].
    rewrite (args_envs l r s f e E2). rewrite (args_envs l r _ [(Nabla, VFn (FLam body))] (fs ++ e2)) by reflexivity.
    apply (Rs_cons _ _ (fset (fset [(Nabla, VFn (FLam body))] Alpha (optv l)) Omega r :: fs)); [|exact He]. apply group_new; [|exact Hg]. destruct Hg as (_ & _ & Hg & _). exact Hg.
  Qed.
  Lemma W_pop_one k ks i (s s2 s' s2' : st) : R ((k, i) :: ks) s s2 -> W (S k) ks s' s2' ->
    W k ks s' (with_envs s2' (skipn (length (envs s2') - length (envs s2)) (envs s2'))).
  Proof.
    intros (H & _) (f & e & fs & e2 & E1 & E2 & Hl & He & Hr & Hroot). apply Rs_length in H as [_ L2]. pose proof He as He'. apply Rs_length in He' as [_ L4].
    destruct fs as [|g fs]; [discriminate|]. cbn in Hl. injection Hl as Hl. exists f, e, fs, e2. split; [exact E1|]. split; [|repeat split; try assumption; apply Hr].
    cbn [envs with_envs]. rewrite E2. cbn [app length]. rewrite app_length. cbn in L2. change (fold_right Nat.add 0 (map fst ks)) with (list_sum (map fst ks)) in L2.
    replace (S (length fs + length e2) - length (envs s2)) with 1 by lia. reflexivity.
  Qed.
  Lemma R_self k body ks (s s2 : st) : root1 ks -> R ((k, Some (VFn (FLam body))) :: ks) s s2 -> nabla_of s2 = Some (VFn (FLam body)).
  Proof.
    intros (ks' & j & -> & Hj) H. rewrite <- (R_nabla _ _ _ H). destruct H as (H & _). inversion H as [|i f fs ks e e2 Hg He E1 E2 E3]; subst. unfold nabla_of. rewrite <- E2.
    inversion He as [|i' f' fs' ks e0 e20 Hg' He' E1 E4 E5]; subst; [destruct ks'; discriminate|]. apply Hg.
  Qed.
  Lemma step_self self body l r (s : st) : nabla_of s = Some (VFn (FLam body)) -> step G self (TCall FSelf l r) s = self (TCall (FLam body) l r) s.
  Proof. unfold nabla_of. cbn [step]. destruct (envs s) as [|e [|e' es]]; try discriminate. intros ->. reflexivity. Qed.

  (* the value of the left expression of a tail call *)
  Definition leftv (self : task -> M value) (l : option value) (e : option (expr D)) : M (option value) :=
    match e with None => mret l | Some e => mbind (eval self e) (fun v => mret (Some v)) end.
  Definition cont self body l (v : gres) : M value :=
    match v with
    | GVal v => mret v
    | GTail tl tr => mbind (eval self tr) (fun r' => mbind (leftv self l tl) (fun l' => self (TLoop body l' r')))
    end.
  Lemma step_loop self body l r (s : st) : step G self (TLoop body l r) s = mbind (guards G self body (VD (l_emptyD G))) (cont self body l) (args l r s).
  Proof. reflexivity. Qed.
  Lemma clean_left (l : option value) (tl : option (expr D)) : match l, tl with Some _, None => false | _, _ => true end = true -> forall self, leftv self l tl = leftv self None tl.
  Proof. destruct l, tl; try discriminate; reflexivity. Qed.

  (* from tail calls to calls *)
  Lemma loop_to n body l r : (forall t, match t with TLoop body l r => body <> [] -> wsim true body l r (tl_run n t) (or_run (4 * n) t) | _ => sim true (tl_run n t) (or_run (4 * n) t) end) ->
    body <> [] -> clean (X := X) (TLoop body l r) = true -> wsim true body l r (step G (tl_run n) (TLoop body l r)) (ordinary_step G (or_run (4 * n + 3)) (TLoop body l r)).
  Proof.
    intros IH Hb HC k ks s s2 o s' Hroot H E. rewrite step_loop in E. change (ordinary_step G (or_run (4 * n + 3)) (TLoop body l r) s2) with (ordinary_guards G (or_run (4 * n + 3)) body (VD (l_emptyD G)) (args l r s2)).
    set (s0 := args l r s) in *. set (s20 := args l r s2) in *. clearbody s0 s20. clear s s2.
    assert (IH3 : forall t, match t with TLoop _ _ _ => True | _ => sim true (tl_run n t) (or_run (4 * n + 3) t) end).
    { intros t. pose proof (IH t) as Q. destruct t; try exact I; intros ks0 s s2 o0 s0' HR HE; destruct (Q _ _ _ _ _ HR HE) as (s2' & E2 & H2); exists s2'; (split; [|exact H2]); refine (run_mono _ _ (4 * n) _ _ (ordinary_mono G) _ _ _ E2); lia. }
    assert (Hret : VD (l_emptyD G) <> (VNil : value)) by discriminate. revert Hret E. generalize (VD (l_emptyD G)) as ret. cbn [clean] in HC.
    assert (HG : forall gs ret s0 s20, forallb (clean_statement l) gs = true -> RR true ((k, Some (VFn (FLam body))) :: ks) s0 s20 -> ret <> VNil ->
      mbind (guards G (tl_run n) gs ret) (cont (tl_run n) body l) s0 = Some (o, s') ->
      exists s2', ordinary_guards G (or_run (4 * n + 3)) gs ret s20 = Some (o, s2') /\ WW true k ks s' s2').
    2:{ intros ret Hret E. apply (HG body ret s0 s20 HC H Hret E). }
    clear s0 s20 H HC. induction gs as [|[c e] gs IHg]; intros ret s0 s20 HC H Hret E.
    - cbn in E. injection E as <- <-. exists s20. split; [reflexivity|]. apply (RR_W true (k, Some (VFn (FLam body)))); assumption.
    - cbn [forallb] in HC. apply andb_true_iff in HC as [HC1 HC2]. cbn [guards ordinary_guards] in *.
      destruct (_ && _) eqn:EF; [injection E as <- <-; exists s20; split; [reflexivity|]; apply (RR_W true (k, Some (VFn (FLam body)))); assumption|].
      destruct (self_call e) as [[tl tr]|] eqn:Ese.
      + (* the tail call *)
        destruct e as [e|]; [|discriminate]. cbn in Ese. destruct e as [ | | | |f el er sel| |]; try discriminate. destruct f; try discriminate. injection Ese as <- <-.
        cbn [clean_statement] in HC1. apply andb_true_iff in HC1 as [HC1 Hl]. apply andb_true_iff in HC1 as [Hsel Hc]. destruct c; [discriminate|]. destruct sel; [discriminate|].
        destruct gs; [|discriminate]. cbn [isAssignment isAssign] in *.
        change (mbind (mret (GTail el er)) (cont (tl_run n) body l) s0) with (cont (tl_run n) body l (GTail el er) s0) in E. cbn [cont] in E. rewrite (clean_left l el Hl) in E.
        unfold guard_eval, evalOpt, eval. unfold eval in E.
        replace (4 * n + 3) with (S (4 * n + 2)) by lia. cbn [run]. change (orderly (TEval (EApp FSelf el er false))) with true. cbv iota. cbn [ordinary_step step]. unfold eval, call.
        assert (IH2 : forall t, match t with TLoop _ _ _ => True | _ => sim true (tl_run n t) (or_run (4 * n + 2) t) end).
        { intros t. pose proof (IH t) as Q. destruct t; try exact I; intros ks0 s s2 o0 s0' HR HE; destruct (Q _ _ _ _ _ HR HE) as (s2' & E2 & H2); exists s2'; (split; [|exact H2]); refine (run_mono _ _ (4 * n) _ _ (ordinary_mono G) _ _ _ E2); lia. }
        assert (HL : sim true (leftv (tl_run n) None el) (match el with None => mret None | Some l0 => mbind (or_run (4 * n + 2) (TEval l0)) (fun v => mret (Some v)) end)).
        { destruct el as [el|]; cbn [leftv]; [|apply sim_ret]. apply sim_bind; [exact (IH2 (TEval el))|intros; apply sim_ret]. }
        unfold mbind at 1 in E. destruct (tl_run n (TEval er) s0) as [[[rv| |] s1]|] eqn:Er; [| | |discriminate]; destruct (IH2 (TEval er) _ _ _ _ _ H Er) as (s21 & Er2 & H1).
        2,3: (injection E as <- <-; unfold mbind at 1 2; unfold mbind at 1; rewrite Er2; exists s21; split; [reflexivity|]; apply (RR_W true (k, Some (VFn (FLam body)))); assumption).
        unfold mbind at 1 in E. destruct (leftv (tl_run n) None el s1) as [[[lv| |] s2]|] eqn:El; [| | |discriminate]; destruct (HL _ _ _ _ _ H1 El) as (s22 & El2 & H2).
        2,3: (injection E as <- <-; unfold mbind at 1 2; unfold mbind at 1; rewrite Er2; unfold mbind at 1; rewrite El2; exists s22; split; [reflexivity|]; apply (RR_W true (k, Some (VFn (FLam body)))); assumption).
        (* the call *)
        pose proof (IH (TLoop body lv rv) Hb (S k) ks s2 (with_envs s22 ([(Nabla, VFn (FLam body))] :: envs s22)) o s' Hroot (R_new k body ks lv rv s2 s22 Hroot H2) E) as (s23 & E3 & HW).
        assert (Eself : or_run (4 * n + 2) (TCall FSelf lv rv) s22 = Some (o, with_envs s23 (skipn (length (envs s23) - length (envs s22)) (envs s23)))).
        { replace (4 * n + 2) with (S (S (4 * n))) by lia. cbn [run]. change (orderly (TCall FSelf lv rv)) with true. cbv iota.
          change (ordinary_step G ?x (TCall FSelf lv rv)) with (step G x (TCall FSelf lv rv)). rewrite (step_self _ body) by (exact (R_self k body ks s2 s22 Hroot H2)). cbn [run].
          change (orderly (TCall (FLam body) lv rv)) with true. cbv iota. change (ordinary_step G ?x (TCall (FLam body) lv rv)) with (step G x (TCall (FLam body) lv rv)). cbn [step]. destruct body as [|g0 body0]; [congruence|].
          unfold in_env. match goal with |- match ?a with _ => _ end = _ => replace a with (Some (o, s23)) by (symmetry; exact E3) end. reflexivity. }
        unfold mbind at 1 2. unfold mbind at 1. rewrite Er2. unfold mbind at 1. rewrite El2. cbn [andb]. cbv iota. rewrite Eself.
        assert (Ho : o <> Ok VNil).
        { destruct (4 * n) as [|m] eqn:Em; [discriminate|]. cbn [run] in E3. destruct (orderly (TLoop body lv rv)); [|discriminate].
          change (ordinary_guards G (or_run m) body (VD (l_emptyD G)) (args lv rv (with_envs s22 ([(Nabla, VFn (FLam body))] :: envs s22))) = Some (o, s23)) in E3. eapply or_not_nil; [|exact E3]. discriminate. }
        destruct o as [v| |].
        * exists (with_envs s23 (skipn (length (envs s23) - length (envs s22)) (envs s23))). split; [destruct v; try congruence; reflexivity|]. eapply W_pop_one; [exact H2|exact HW].
        * eexists. split; [reflexivity|]. eapply W_pop_one; [exact H2|exact HW].
        * eexists. split; [reflexivity|]. eapply W_pop_one; [exact H2|exact HW].
      + assert (HS : sim true (guard_eval G (tl_run n) c e) (guard_eval G (or_run (4 * n + 3)) c e)).
        { clear -IH3. unfold guard_eval, evalOpt, eval. destruct c as [c|], e as [e|]; try apply sim_panic.
          - apply sim_bind; [exact (IH3 (TEval c))|]. intros v. destruct (match v with VD _ => _ | _ => _ end) as [[]|]; [|apply sim_ret|apply sim_fail]. apply sim_bind; [exact (IH3 (TEval e))|intros; apply sim_ret].
          - apply sim_bind; [exact (IH3 (TEval c))|]. intros v. destruct (match v with VD _ => _ | _ => _ end) as [[]|]; [|apply sim_ret|apply sim_fail]. apply sim_bind; [apply sim_panic|intros; apply sim_ret].
          - apply sim_bind; [exact (IH3 (TEval e))|intros; apply sim_ret]. }
        unfold mbind at 2 in E. unfold mbind at 1 in E. unfold mbind at 1. destruct (guard_eval G (tl_run n) c e s0) as [[[v| |] s1]|] eqn:Eg; [| | |discriminate]; destruct (HS _ _ _ _ _ H Eg) as (s21 & -> & H1).
        2,3: (injection E as <- <-; exists s21; split; [reflexivity|]; apply (RR_W true (k, Some (VFn (FLam body)))); assumption).
        destruct v as [v|]; [|apply (IHg ret s1 s21 HC2 H1 Hret E)].
        destruct v as [|d|f|x|vl|vi|te]; [apply (IHg ret s1 s21 HC2 H1 Hret E)|..];
        (destruct (isAssignment e); [refine (IHg _ s1 s21 HC2 H1 _ E); discriminate|injection E as <- <-; exists s21; split; [reflexivity|]; apply (RR_W true (k, Some (VFn (FLam body)))); assumption]).
  Qed.

  (* from calls to tail calls *)
  Lemma loop_from n body l r : (forall m t, m <= n -> match t with TLoop body l r => body <> [] -> wsim false body l r (or_run m t) (tl_run m t) | _ => sim false (or_run m t) (tl_run m t) end) ->
    body <> [] -> clean (X := X) (TLoop body l r) = true -> wsim false body l r (ordinary_step G (or_run n) (TLoop body l r)) (step G (tl_run n) (TLoop body l r)).
  Proof.
    intros IH Hb HC k ks s s2 o s' Hroot H E. rewrite step_loop. change (ordinary_guards G (or_run n) body (VD (l_emptyD G)) (args l r s) = Some (o, s')) in E.
    set (s0 := args l r s) in *. set (s20 := args l r s2) in *. clearbody s0 s20. clear s s2.
    assert (Hret : VD (l_emptyD G) <> (VNil : value)) by discriminate. revert Hret E. generalize (VD (l_emptyD G)) as ret. cbn [clean] in HC.
    assert (HG : forall gs ret s0 s20, forallb (clean_statement l) gs = true -> RR false ((k, Some (VFn (FLam body))) :: ks) s0 s20 -> ret <> VNil ->
      ordinary_guards G (or_run n) gs ret s0 = Some (o, s') ->
      exists s2', mbind (guards G (tl_run n) gs ret) (cont (tl_run n) body l) s20 = Some (o, s2') /\ WW false k ks s' s2').
    2:{ intros ret Hret E. apply (HG body ret s0 s20 HC H Hret E). }
    assert (More : forall m t, m <= n -> le (tl_run m t) (tl_run n t)).
    { intros m t Hm. apply run_mono; [|exact Hm]. intros. apply step_mono. assumption. }
    clear s0 s20 H HC. induction gs as [|[c e] gs IHg]; intros ret s0 s20 HC H Hret E.
    - cbn in E. injection E as <- <-. exists s20. split; [reflexivity|]. apply (RR_W false (k, Some (VFn (FLam body)))); assumption.
    - cbn [forallb] in HC. apply andb_true_iff in HC as [HC1 HC2]. cbn [guards ordinary_guards] in *.
      destruct (_ && _) eqn:EF; [injection E as <- <-; exists s20; split; [reflexivity|]; apply (RR_W false (k, Some (VFn (FLam body)))); assumption|].
      destruct (self_call e) as [[tl tr]|] eqn:Ese.
      + (* the tail call *)
        destruct e as [e|]; [|discriminate]. cbn in Ese. destruct e as [ | | | |f el er sel| |]; try discriminate. destruct f; try discriminate. injection Ese as <- <-.
        cbn [clean_statement] in HC1. apply andb_true_iff in HC1 as [HC1 Hl]. apply andb_true_iff in HC1 as [Hsel Hc]. destruct c; [discriminate|]. destruct sel; [discriminate|].
        destruct gs; [|discriminate]. cbn [isAssignment isAssign] in *.
        change (mbind (mret (GTail el er)) (cont (tl_run n) body l) s20) with (cont (tl_run n) body l (GTail el er) s20). cbn [cont]. rewrite (clean_left l el Hl).
        unfold guard_eval, evalOpt, eval in E. unfold eval.
        destruct n as [|n1]; [discriminate|]. cbn [run] in E. change (orderly (TEval (EApp FSelf el er false))) with true in E. cbv iota in E. cbn [ordinary_step step] in E. unfold eval, call in E.
        assert (HL : sim false (match el with None => mret None | Some l0 => mbind (or_run n1 (TEval l0)) (fun v => mret (Some v)) end) (leftv (tl_run (S n1)) None el)).
        { destruct el as [el|]; cbn [leftv]; [|apply sim_ret]. apply sim_bind; [|intros; apply sim_ret]. intros ks0 s s2 o0 s0' HR HE. destruct (IH n1 (TEval el) ltac:(lia) _ _ _ _ _ HR HE) as (s2' & E2 & H2). exists s2'. split; [|exact H2]. apply (More n1); [lia|exact E2]. }
        unfold mbind at 1 2 in E. unfold mbind at 1 in E. destruct (or_run n1 (TEval er) s0) as [[[rv| |] s1]|] eqn:Er; [| | |discriminate];
          destruct (IH n1 (TEval er) ltac:(lia) _ _ _ _ _ H Er) as (s21 & Er2 & H1); apply (More n1 _ ltac:(lia)) in Er2.
        2,3: (injection E as <- <-; unfold mbind at 1; rewrite Er2; exists s21; split; [reflexivity|]; apply (RR_W false (k, Some (VFn (FLam body)))); assumption).
        unfold mbind at 1 in E.
        destruct (match el with None => mret None | Some l0 => mbind (or_run n1 (TEval l0)) (fun v => mret (Some v)) end s1) as [[[lv| |] s2]|] eqn:El; [| | |discriminate]; destruct (HL _ _ _ _ _ H1 El) as (s22 & El2 & H2).
        2,3: (injection E as <- <-; unfold mbind at 1; rewrite Er2; unfold mbind at 1; rewrite El2; exists s22; split; [reflexivity|]; apply (RR_W false (k, Some (VFn (FLam body)))); assumption).
        cbn [andb] in E. cbv iota in E. unfold mbind at 1. rewrite Er2. unfold mbind at 1. rewrite El2.
        destruct (or_run n1 (TCall FSelf lv rv) s2) as [[o1 s3]|] eqn:Ec; [|discriminate].
        destruct n1 as [|n2]; [discriminate|]. cbn [run] in Ec. change (orderly (TCall FSelf lv rv)) with true in Ec. cbv iota in Ec.
        change (ordinary_step G ?x (TCall FSelf lv rv)) with (step G x (TCall FSelf lv rv)) in Ec. rewrite (step_self _ body) in Ec by (exact (R_self k body ks s22 s2 Hroot H2)).
        destruct n2 as [|n3]; [discriminate|]. cbn [run] in Ec. change (orderly (TCall (FLam body) lv rv)) with true in Ec. cbv iota in Ec.
        change (ordinary_step G ?x (TCall (FLam body) lv rv)) with (step G x (TCall (FLam body) lv rv)) in Ec.
        assert (Ec' : in_env [(Nabla, VFn (FLam body))] (or_run n3 (TLoop body lv rv)) s2 = Some (o1, s3)). { destruct body as [|g0 body0]; [congruence|exact Ec]. }
        clear Ec. unfold in_env in Ec'. destruct (or_run n3 (TLoop body lv rv) _) as [[o2 s4]|] eqn:E4; [|discriminate]. injection Ec' as -> <-.
        destruct (IH n3 (TLoop body lv rv) ltac:(lia) Hb (S k) ks _ s22 o1 s4 Hroot (R_new k body ks lv rv s22 s2 Hroot H2) E4) as (s23 & E5 & HW). apply (More n3 _ ltac:(lia)) in E5.
        assert (Ho : o1 <> Ok VNil).
        { destruct n3 as [|m]; [discriminate|]. cbn [run] in E4. destruct (orderly (TLoop body lv rv)); [|discriminate].
          match type of E4 with ordinary_step _ _ _ ?s9 = _ => change (ordinary_guards G (or_run m) body (VD (l_emptyD G)) (args lv rv s9) = Some (o1, s4)) in E4 end. eapply or_not_nil; [|exact E4]. discriminate. }
        exists s23. rewrite E5. assert (Q : o = o1 /\ s' = with_envs s4 (skipn (length (envs s4) - length (envs s2)) (envs s4))).
        { destruct o1 as [v| |]; [destruct v; try congruence|..]; injection E as <- <-; split; reflexivity. }
        destruct Q as [-> ->]. split; [reflexivity|]. eapply W_pop_one; [exact H2|exact HW].
      + assert (HS : sim false (guard_eval G (or_run n) c e) (guard_eval G (tl_run n) c e)).
        { assert (IH3 : forall e, sim false (or_run n (TEval e)) (tl_run n (TEval e))) by (intros e'; exact (IH n (TEval e') ltac:(lia))).
          clear -IH3. unfold guard_eval, evalOpt, eval. destruct c as [c|], e as [e|]; try apply sim_panic.
          - apply sim_bind; [apply IH3|]. intros v. destruct (match v with VD _ => _ | _ => _ end) as [[]|]; [|apply sim_ret|apply sim_fail]. apply sim_bind; [apply IH3|intros; apply sim_ret].
          - apply sim_bind; [apply IH3|]. intros v. destruct (match v with VD _ => _ | _ => _ end) as [[]|]; [|apply sim_ret|apply sim_fail]. apply sim_bind; [apply sim_panic|intros; apply sim_ret].
          - apply sim_bind; [apply IH3|intros; apply sim_ret]. }
        unfold mbind at 2. unfold mbind at 1. unfold mbind at 1 in E. destruct (guard_eval G (or_run n) c e s0) as [[[v| |] s1]|] eqn:Eg; [| | |discriminate]; destruct (HS _ _ _ _ _ H Eg) as (s21 & -> & H1).
        2,3: (injection E as <- <-; exists s21; split; [reflexivity|]; apply (RR_W false (k, Some (VFn (FLam body)))); assumption).
        destruct v as [v|]; [|apply (IHg ret s1 s21 HC2 H1 Hret E)].
        destruct v as [|d|f|x|vl|vi|te]; [apply (IHg ret s1 s21 HC2 H1 Hret E)|..];
        (destruct (isAssignment e); [refine (IHg _ s1 s21 HC2 H1 _ E); discriminate|injection E as <- <-; exists s21; split; [reflexivity|]; apply (RR_W false (k, Some (VFn (FLam body)))); assumption]).
  Qed.

  Lemma to_ordinary n t : match t with TLoop body l r => body <> [] -> wsim true body l r (tl_run n t) (or_run (4 * n) t) | _ => sim true (tl_run n t) (or_run (4 * n) t) end.
  Proof.
    revert t. induction n as [|n IH]; intros t.
    - destruct t; [| | |intros Hb]; intros ? *; discriminate.
    - replace (4 * S n) with (S (4 * n + 3)) by lia. cbn [run]. destruct (orderly t) eqn:Ek; [|destruct t; [| | |intros Hb]; intros ? *; discriminate].
      apply andb_true_iff in Ek as [Hp Hc].
      assert (IH3 : forall t, match t with TLoop body l r => body <> [] -> wsim true body l r (tl_run n t) (or_run (4 * n + 3) t) | _ => sim true (tl_run n t) (or_run (4 * n + 3) t) end).
      { intros t'. pose proof (IH t') as Q. assert (Mo := run_mono orderly (ordinary_step G) (4 * n) (4 * n + 3) t' (ordinary_mono G) ltac:(lia)).
        destruct t' as [e|f l r|c|body l r]; [| | |intros Hb; specialize (Q Hb); intros k].
        1-3: (intros ks s s2 o s' HR HE; destruct (Q _ _ _ _ _ HR HE) as (s2' & E2 & H2); exists s2'; split; [apply Mo, E2|exact H2]).
        intros ks s s2 o s' Hr HR HE; destruct (Q _ _ _ _ _ _ Hr HR HE) as (s2' & E2 & H2); exists s2'; split; [apply Mo, E2|exact H2]. }
      destruct t as [e|f l r|c|body l r]; [| | |intros Hb; apply loop_to; assumption].
      + change (ordinary_step G ?x (TEval e)) with (step G x (TEval e)). apply sim_step; [exact IH3|exact Hp|discriminate].
      + change (ordinary_step G ?x (TCall f l r)) with (step G x (TCall f l r)). apply sim_step; [exact IH3|exact Hp|discriminate].
      + change (ordinary_step G ?x (TCode c)) with (step G x (TCode c)). apply sim_step; [exact IH3|exact Hp|discriminate].
  Qed.
  Lemma from_ordinary n : forall m t, m <= n -> match t with TLoop body l r => body <> [] -> wsim false body l r (or_run m t) (tl_run m t) | _ => sim false (or_run m t) (tl_run m t) end.
  Proof.
    induction n as [|n IH]; intros m t Hm.
    - replace m with 0 by lia. destruct t; [| | |intros Hb]; intros ? *; discriminate.
    - destruct m as [|m]; [apply (IH 0 t); lia|]. cbn [run]. destruct (orderly t) eqn:Ek; [|destruct t; [| | |intros Hb]; intros ? *; discriminate].
      apply andb_true_iff in Ek as [Hp Hc]. assert (IHm : forall t, match t with TLoop body l r => body <> [] -> wsim false body l r (or_run m t) (tl_run m t) | _ => sim false (or_run m t) (tl_run m t) end) by (intros t'; apply IH; lia).
      destruct t as [e|f l r|c|body l r]; [| | |intros Hb; apply loop_from; try assumption; intros; apply IH; lia].
      + change (ordinary_step G ?x (TEval e)) with (step G x (TEval e)). apply sim_step; [exact IHm|exact Hp|discriminate].
      + change (ordinary_step G ?x (TCall f l r)) with (step G x (TCall f l r)). apply sim_step; [exact IHm|exact Hp|discriminate].
      + change (ordinary_step G ?x (TCode c)) with (step G x (TCode c)). apply sim_step; [exact IHm|exact Hp|discriminate].
  Qed.
  Lemma tail_iff t (s : st) o s' : envs s <> [] -> (forall body l r, t <> TLoop body l r) ->
    (ends_with orderly (step G) t s o s' <-> ends_with orderly (ordinary_step G) t s o s').
  Proof.
    intros He Ht. split; intros [n H].
    - pose proof (to_ordinary n t) as Q. assert (Q' : sim true (tl_run n t) (or_run (4 * n) t)) by (destruct t; try exact Q; exfalso; eapply Ht; reflexivity).
      destruct (Q' _ s s o s' (R_diag s He) H) as (s2 & E & HR). apply R_diag_eq in HR. subst s2. exists (4 * n). exact E.
    - pose proof (from_ordinary n n t ltac:(lia)) as Q. assert (Q' : sim false (or_run n t) (tl_run n t)) by (destruct t; try exact Q; exfalso; eapply Ht; reflexivity).
      destruct (Q' _ s s o s' (R_diag s He) H) as (s2 & E & HR). apply R_diag_eq in HR. subst s2. exists n. exact E.
  Qed.
End Tail.
