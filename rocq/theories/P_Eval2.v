(* P_Eval2.v -- what a computation of the interpreter does to the environments (C62). *)
From Verif Require Import Base M_Syntax M_Eval S_Eval P_Eval.
From Coq Require Import String List Lia.
Import ListNotations.
Open Scope list_scope.

Section Keeps.
  Context {D X : Type} (G : lang D X).
  Local Notation value := (value D). Local Notation st := (st D X). Local Notation M := (M D X). Local Notation task := (task D X).
  Context (K : st -> st -> Prop).
  Hypothesis K_envs : forall s s', pkgs s' = pkgs s -> envs s' = envs s -> K s s'.
  Hypothesis K_trans : forall a b c, K a b -> K b c -> K a c.
  Hypothesis K_top : forall s g, K s (with_envs s (upd_height (envs s) (length (envs s) - 1) g)).
  Hypothesis K_env : forall s s' vars, K (with_envs s (vars :: envs s)) s' -> K s (with_envs s' (skipn (length (envs s') - length (envs s)) (envs s'))).
  Definition mk {A} (m : M A) : Prop := forall s o s', m s = Some (o, s') -> K s s'.

  Lemma mk_ret {A} (a : A) : mk (mret a). Proof. intros s o s' H. injection H as <- <-. apply K_envs; reflexivity. Qed.
  Lemma mk_fail {A} : mk (@mfail D X A). Proof. intros s o s' H. injection H as <- <-. apply K_envs; reflexivity. Qed.
  Lemma mk_panic {A} : mk (@mpanic D X A). Proof. intros s o s' H. injection H as <- <-. apply K_envs; reflexivity. Qed.
  Lemma mk_none {A} : mk (fun _ => @None (outcome A * st)). Proof. intros s o s' H. discriminate. Qed.
  Lemma mk_bind {A B} (m : M A) (k : A -> M B) : mk m -> (forall a, mk (k a)) -> mk (mbind m k).
  Proof.
    intros Hm Hk s o s' H. unfold mbind in H. destruct (m s) as [[[a| |] s1]|] eqn:E; [| | |discriminate].
    - eapply K_trans; [eapply Hm, E|eapply Hk, H].
    - injection H as <- <-. eapply Hm, E.
    - injection H as <- <-. eapply Hm, E.
  Qed.
  Lemma mk_try {A B} (m : M A) (k : outcome A -> M B) : mk m -> (forall a, mk (k a)) -> mk (mtry m k).
  Proof.
    intros Hm Hk s o s' H. unfold mtry in H. destruct (m s) as [[[a| |] s1]|] eqn:E; [| | |discriminate].
    - eapply K_trans; [eapply Hm, E|eapply Hk, H].
    - eapply K_trans; [eapply Hm, E|eapply Hk, H].
    - injection H as <- <-. eapply Hm, E.
  Qed.
  Lemma mk_mmap {A B} (f : A -> M B) l : (forall a, mk (f a)) -> mk (mmap f l).
  Proof. intros H. induction l as [|x l IH]; cbn; [apply mk_ret|]. apply mk_bind; [apply H|]. intros y. apply mk_bind; [exact IH|]. intros. apply mk_ret. Qed.
  Lemma mk_st {A} (m : st -> M A) : (forall s, mk (m s)) -> mk (fun s => m s s).
  Proof. intros H s o s' E. apply (H s _ _ _ E). Qed.
  Lemma mk_in_env vars (m : M value) : mk m -> mk (in_env vars m).
  Proof.
    intros H s o s' E. unfold in_env in E. destruct (m _) as [[o1 s1]|] eqn:E1; [|discriminate]. injection E as <- <-. apply (K_env s s1 vars). eapply H, E1.
  Qed.
  Lemma mk_assign_top x v : mk (massign G x v None).
  Proof.
    intros s o s' H. unfold massign in H. destruct (AssignEnv G x v None s) as [o1 s1] eqn:E. injection H as <- <-. revert E. unfold AssignEnv.
    destruct (isVarname x) as [ok isf]. destruct (negb ok); [intros E; injection E as <- <-; apply K_envs; reflexivity|].
    assert (Q : forall b1 b2 b3 : bool, (if b1 then (Err, s) else if b2 then (Err, s) else if b3 then (Ok tt, s) else
        (Ok tt, with_envs s (upd_height (envs s) (length (envs s) - 1) (fun f => fset f x v)))) = (o1, s1) -> K s s1).
    { intros [] [] [] E; injection E as <- <-; try (apply K_envs; reflexivity); apply K_top. }
    destruct x; try (apply Q with (b3 := false)); try apply Q.
    - intros E; injection E as <- <-; apply K_envs; reflexivity.
    - destruct v; try (intros E; injection E as <- <-; apply K_envs; reflexivity). destruct (l_toBool G d); intros E; injection E as <- <-; apply K_envs; reflexivity.
    - destruct (l_setpp G v (ext s)); intros E; injection E as <- <-; apply K_envs; reflexivity.
    - intros E; injection E as <- <-; apply K_envs; reflexivity.
  Qed.

  Section Step.
    Context (self : task -> M value) (Hs : forall t, mk (self t)).
    Ltac mkt := repeat first
      [ apply mk_ret | apply mk_fail | apply mk_panic | apply Hs
      | apply mk_bind; [|intros ?] | apply mk_try; [|intros ?] | apply mk_mmap; intros ? | apply mk_in_env
      | match goal with |- mk (match ?x with _ => _ end) => destruct x end
      | match goal with |- mk (if ?x then _ else _) => destruct x end ].
    Lemma mk_handlers hs pick l r : mk (try_handlers self hs pick l r).
    Proof. induction hs as [|h hs IH]; [apply mk_fail|]. intros s o s' E. cbn in E. destruct (hto h (ext s) l r) as [[l' r']|]; [eapply Hs, E|eapply IH, E]. Qed.
    Lemma mk_operators os lo ro k : mk (try_operators self os lo ro k).
    Proof. induction os as [|h hs IH]; [apply mk_fail|]. intros s o s' E. cbn in E. destruct (oto h (ext s) lo ro) as [[l' r']|]; [eapply Hs, E|eapply IH, E]. Qed.
    Lemma mk_evalOpt e : mk (evalOpt self e). Proof. unfold evalOpt, eval. mkt. Qed.
    Lemma mk_evalAssign e : mk (evalAssign self e).
    Proof. unfold evalAssign, eval. destruct e as [e|]; [|apply mk_fail]. destruct e; mkt. Qed.
    Lemma mk_derived_select op lo ro l r : mk (derived_select G self op lo ro l r).
    Proof.
      unfold derived_select. destruct (l_operators G op) as [|o os]; [apply mk_fail|]. destruct (_ && _); [apply mk_fail|].
      apply mk_bind; [apply mk_evalOpt|]. intros lv. apply mk_bind; [destruct (odyadic o); [apply mk_bind; [apply mk_evalOpt|intros; apply mk_ret]|apply mk_ret]|]. intros rv. apply mk_operators.
    Qed.
    Lemma mk_train t l r : mk (train self t l r).
    Proof.
      assert (A : forall a b, mk (atop self a b l r)). { intros a b. unfold atop, asFunc, call. mkt. }
      assert (F : forall a b c, mk (fork self a b c l r)). { intros a b c. unfold fork, asFunc, call. mkt. }
      unfold train, eval. destruct t as [|e0 [|e1 [|e2 [|e3 t]]]]; try apply mk_fail; repeat (apply mk_bind; [apply Hs|intros ?]); auto.
      destruct (Nat.even _); repeat (apply mk_bind; [apply Hs|intros ?]); auto.
    Qed.
    Lemma mk_guards gs ret : mk (guards G self gs ret).
    Proof.
      revert ret. induction gs as [|[c e] gs IH]; intros ret; [apply mk_ret|]. cbn [guards]. destruct (_ && _); [apply mk_fail|].
      destruct (self_call e) as [[? ?]|]; [apply mk_ret|]. apply mk_bind; [unfold guard_eval, evalOpt, eval; mkt|]. intros v. destruct v as [v|]; [|apply IH]. destruct v; try apply IH; destruct (isAssignment e); try apply IH; apply mk_ret.
    Qed.
    Lemma K_set_top x v s : K s (set_top x v s). Proof. apply K_top. Qed.
    (* everything except the assignment of a variable *)
    Lemma mk_assign_call lo l R : (forall x idx f v, mk (assignScalar G self x idx f v)) -> mk (assign_call G self lo l R).
    Proof.
      intros HA. assert (HE : forall xs vs f, mk (assign_each G self xs vs f)).
      { induction xs as [|x xs IH]; intros [|v vs] f; cbn; try apply mk_ret; try apply mk_fail. apply mk_bind; [apply HA|intros; apply IH]. }
      unfold assign_call. apply mk_bind.
      - destruct l as [v|]; [destruct v; try apply mk_fail|]; [destruct lo as [e'|]; [destruct e'; try apply mk_fail|]|]; (apply mk_bind; [apply mk_evalAssign|intros; apply mk_ret]).
      - intros [t f]. destruct t as [x idx|xs]; [apply mk_bind; [apply HA|intros; apply mk_ret]|]. unfold assignVector.
        destruct (match l_asVec G R with Some a => a | None => _ end) as [sh vs]. destruct sh as [|n [|? ?]]; try apply mk_fail. mkt; apply HE.
    Qed.
    Lemma mk_step_but t : (forall op lo ro l r, t = TCall (FDer op lo ro) l r -> op = assign_op -> mk (assign_call G self lo l r)) -> mk (step G self t).
    Proof.
      intros HA. destruct t as [e|f l r|c|body l r].
      - destruct e as [d|l|x|f|f l r sel|l|l]; cbn [M_Eval.step].
        + apply mk_ret.
        + unfold eval. destruct l as [|e1 [|e2 l]]; mkt.
        + intros s o s' E. destruct (Lookup G s x); exact (mk_ret _ s o s' E).
        + apply mk_ret.
        + unfold eval, call. apply mk_bind; [apply Hs|]. intros rv. apply mk_bind; [mkt|]. intros lv.
          destruct (_ && _); [|apply Hs]. destruct f; try apply mk_fail; [apply mk_handlers|apply mk_derived_select].
        + unfold eval. mkt.
        + unfold eval. mkt.
      - destruct f as [p|x|body| |ts|op lo ro|p]; cbn [M_Eval.step].
        + apply mk_handlers.
        + intros s o s' E. destruct (Lookup G s x); try (exact (mk_fail s o s' E)); try (exact (mk_ret _ s o s' E)). exact (Hs _ s o s' E).
        + destruct body; mkt.
        + intros s o s' E. destruct (envs s) as [|e [|e' es]]; try (exact (mk_fail s o s' E)). destruct (fget e Nabla) as [v|]; [|exact (mk_fail s o s' E)].
          destruct v; try exact (mk_fail s o s' E). destruct f; try exact (mk_fail s o s' E). exact (Hs _ s o s' E).
        + apply mk_train.
        + unfold derived_call. destruct (String.eqb op assign_op) eqn:Eo; [apply String.eqb_eq in Eo; eapply HA; [reflexivity|exact Eo]|].
          destruct (l_operators G op) as [|o os]; [apply mk_fail|].
          apply mk_bind; [destruct (odyadic o); [apply mk_bind; [apply mk_evalOpt|intros; apply mk_ret]|apply mk_ret]|]. intros rv. apply mk_bind; [apply mk_evalOpt|]. intros lv. apply mk_operators.
        + apply Hs.
      - destruct c as [o|f l r k|f l r vars k|x k|h]; cbn [M_Eval.step]; unfold call.
        + intros s o' s' E. injection E as <- <-. apply K_envs; reflexivity.
        + mkt.
        + mkt.
        + intros s o s' E. eapply Hs, E.
        + intros s o s' E. destruct (h (ext s)) as [x c]. eapply K_trans; [|eapply Hs, E]. apply K_envs; reflexivity.
      - cbn [M_Eval.step]. intros s o s' E. eapply K_trans; [eapply K_trans; [apply (K_set_top Alpha (optv l))|apply (K_set_top Omega r)]|].
        revert E. match goal with |- ?m ?s = _ -> _ => intros E; refine ((_ : mk m) s o s' E) end.
        apply mk_bind; [apply mk_guards|]. intros v. destruct v; mkt.
    Qed.
  End Step.
End Keeps.

(* the names of the variables in the outer frames *)
Section Names.
  Context {D X : Type} (G : lang D X).
  Local Notation value := (value D). Local Notation st := (st D X). Local Notation M := (M D X). Local Notation task := (task D X).
  Definition fnames (f : frame D) : list name := map fst f.
  Definition keeps_names (s s' : st) : Prop := length (envs s') = length (envs s) /\ map fnames (tl (envs s')) = map fnames (tl (envs s)).
  Lemma fset_names f x v : fget f x <> None -> fnames (fset f x v) = fnames f.
  Proof.
    induction f as [|[y w] f IH]; cbn; [congruence|]. destruct (name_eqb y x) eqn:E; cbn; [apply name_eqb_eq in E; subst; reflexivity|]. intros H. f_equal. apply IH, H.
  Qed.
  Lemma fget_names (f g : frame D) x : fnames f = fnames g -> (fget f x <> None <-> fget g x <> None).
  Proof.
    revert g. induction f as [|[y w] f IH]; intros [|[z u] g] H; try discriminate; [reflexivity|]. cbn in *. injection H as <- H. destruct (name_eqb y x); [split; discriminate|apply IH, H].
  Qed.
  Lemma upd_height_top (e : list (frame D)) g : upd_height e (length e - 1) g = match e with [] => [] | f :: e' => g f :: e' end.
  Proof. unfold upd_height. replace (length e - 1 - (length e - 1))%nat with 0%nat by lia. reflexivity. Qed.
  Lemma upd_height_length (e : list (frame D)) h g : length (upd_height e h g) = length e.
  Proof.
    unfold upd_height. set (i := (length e - 1 - h)%nat). transitivity (length (firstn i e ++ skipn i e)); [|rewrite firstn_skipn; reflexivity].
    rewrite !app_length. f_equal. destruct (skipn i e); reflexivity.
  Qed.
  Lemma upd_height_cons f (e : list (frame D)) h g : (h < length e)%nat -> upd_height (f :: e) h g = f :: upd_height e h g.
  Proof. intros H. unfold upd_height. cbn [length]. replace (S (length e) - 1 - h)%nat with (S (length e - 1 - h)) by lia. reflexivity. Qed.
  Lemma find_env_height e x (v : value) h : find_env e x = (v, Some h) -> (h < length e)%nat.
  Proof. induction e as [|f e IH]; cbn; [discriminate|]. destruct (fget f x); [intros E; injection E as <- <-; lia|]. intros E. apply IH in E. lia. Qed.
  Lemma upd_names (e e0 : list (frame D)) x v w h : map fnames e = map fnames e0 -> find_env e0 x = (w, Some h) -> map fnames (upd_height e h (fun f => fset f x v)) = map fnames e.
  Proof.
    revert e. induction e0 as [|f0 e0 IH]; intros [|f e] E H; try discriminate. cbn in E. injection E as E1 E2. cbn in H. destruct (fget f0 x) eqn:E0.
    - injection H as _ <-. assert (L : length e0 = length e) by (rewrite <- (map_length fnames e0), <- E2, map_length; reflexivity).
      replace (length e0) with (length (f :: e) - 1)%nat by (cbn; lia). rewrite upd_height_top. cbn. f_equal. apply fset_names. apply (fget_names _ _ x E1). congruence.
    - assert (L : length e0 = length e) by (rewrite <- (map_length fnames e0), <- E2, map_length; reflexivity).
      rewrite upd_height_cons by (apply find_env_height in H; lia). cbn. f_equal. apply IH; assumption.
  Qed.

  Lemma kn_envs (s s' : st) : pkgs s' = pkgs s -> envs s' = envs s -> keeps_names s s'. Proof. intros _ E. unfold keeps_names. rewrite E. split; reflexivity. Qed.
  Lemma kn_trans a b c : keeps_names a b -> keeps_names b c -> keeps_names a c. Proof. intros [H1 H2] [H3 H4]. split; congruence. Qed.
  Lemma kn_top s g : keeps_names s (with_envs s (upd_height (envs s) (length (envs s) - 1) g)).
  Proof. unfold keeps_names. cbn [envs with_envs]. rewrite upd_height_top. destruct (envs s); split; reflexivity. Qed.
  Lemma pop_one (s s' : st) vars : keeps_names (with_envs s (vars :: envs s)) s' -> exists f e, envs s' = f :: e /\ length e = length (envs s) /\ map fnames e = map fnames (envs s).
  Proof. intros [L H]. cbn in L, H. destruct (envs s') as [|f e]; [discriminate|]. exists f, e. cbn in L, H. split; [reflexivity|]. split; [lia|exact H]. Qed.
  Lemma kn_env_all s s' vars : keeps_names (with_envs s (vars :: envs s)) s' ->
    map fnames (skipn (length (envs s') - length (envs s)) (envs s')) = map fnames (envs s).
  Proof. intros H. apply pop_one in H as (f & e & -> & L & Hn). cbn [length]. replace (S (length e) - length (envs s))%nat with 1%nat by lia. exact Hn. Qed.
  Lemma names_keeps s (e : list (frame D)) s' : map fnames e = map fnames (envs s) -> keeps_names s (with_envs s' e).
  Proof.
    intros H. unfold keeps_names. cbn [envs with_envs]. split; [rewrite <- (map_length fnames e), H, map_length; reflexivity|]. destruct e, (envs s); try discriminate; [reflexivity|]. cbn in *. congruence.
  Qed.
  Lemma kn_env s s' vars : keeps_names (with_envs s (vars :: envs s)) s' -> keeps_names s (with_envs s' (skipn (length (envs s') - length (envs s)) (envs s'))).
  Proof. intros H. apply names_keeps, (kn_env_all _ _ vars), H. Qed.
  Lemma kn_massign_at x v w env s0 s : LookupEnv G s0 x = (w, env) -> w <> VNil -> keeps_names s0 s -> keeps_names s (snd (AssignEnv G x v env s)).
  Proof.
    intros HL Hw Hk. destruct env as [h|].
    2:{ assert (Q := mk_assign_top G keeps_names kn_envs kn_top x v s). unfold massign in Q. destruct (AssignEnv G x v None s) as [o1 s1]. cbn. apply (Q o1 s1). reflexivity. }
    assert (Q : find_env (envs s0) x = (w, Some h)).
    { unfold LookupEnv in HL. destruct x; try exact HL; try discriminate. destruct (negb _); [discriminate|]. destruct (find _ _) as [[? ?]|]; discriminate. }
    assert (R : keeps_names s (with_envs s (upd_height (envs s) h (fun f => fset f x v)))).
    { destruct Hk as [Hk1 Hk2]. destruct (envs s0) as [|f0 e0] eqn:E0; [discriminate|]. destruct (envs s) as [|f e] eqn:E; [discriminate|]. cbn in Hk1, Hk2.
      unfold keeps_names. cbn [envs with_envs]. rewrite E. split; [apply upd_height_length|]. pose proof Q as Qh. apply find_env_height in Qh. cbn [length] in Qh.
      destruct (Nat.eq_dec h (length e)) as [->|Hh].
      - replace (length e) with (length (f :: e) - 1)%nat by (cbn; lia). rewrite upd_height_top. reflexivity.
      - rewrite upd_height_cons by lia. cbn [tl]. cbn in Q. destruct (fget f0 x); [injection Q as _ Q; lia|]. apply (upd_names e e0 x v w h Hk2 Q). }
    unfold AssignEnv. destruct (isVarname x) as [ok isf]. destruct (negb ok); [apply kn_envs; reflexivity|].
    destruct x; try (apply kn_envs; reflexivity); try (destruct v; try (apply kn_envs; reflexivity); destruct (l_toBool G d); apply kn_envs; reflexivity);
      try (destruct (l_setpp G v (ext s)); apply kn_envs; reflexivity);
      (destruct (isFn v && _); [apply kn_envs; reflexivity|]; destruct (negb (isFn v) && _); [apply kn_envs; reflexivity|]); try exact R.
    destruct (match skipn _ _ with [] => false | _ => _ end); [apply kn_envs; reflexivity|exact R].
  Qed.
  Lemma kn_assignScalar self x idx f R : (forall t, mk keeps_names (self t)) -> mk keeps_names (assignScalar G self x idx f R).
  Proof.
    intros Hs. unfold assignScalar.
    assert (Q : forall m : M value, mk keeps_names m -> mk keeps_names (fun s =>
      match LookupEnv G s x with
      | (VNil, _) => mfail s
      | (w, env) => (do v <- m; match v with VNil => mret tt | _ => massign G x v env end) s end)).
    { intros m Hm s o s' E. destruct (LookupEnv G s x) as [w env] eqn:EL.
      assert (Hw : w = VNil \/ (w <> VNil /\ (do v <- m; match v with VNil => mret tt | _ => massign G x v env end) s = Some (o, s'))).
      { destruct w; [left; reflexivity|..]; right; (split; [discriminate|exact E]). }
      destruct Hw as [->|[Hw E1]]; [exact (mk_fail keeps_names kn_envs s o s' E)|]. clear E. unfold mbind in E1. destruct (m s) as [[[v| |] s1]|] eqn:E2; [| | |discriminate].
      - pose proof (Hm _ _ _ E2) as H1. eapply kn_trans; [exact H1|].
        assert (H2 : v = VNil /\ s' = s1 \/ massign G x v env s1 = Some (o, s')).
        { destruct v; [left; split; [reflexivity|]; injection E1 as _ <-; reflexivity|..]; right; exact E1. }
        destruct H2 as [[-> ->]|H2]; [apply kn_envs; reflexivity|]. unfold massign in H2. pose proof (kn_massign_at x v w env s s1 EL Hw H1) as H3. destruct (AssignEnv G x v env s1) as [o2 s2]. injection H2 as _ <-. exact H3.
      - injection E1 as _ <-. eapply Hm, E2.
      - injection E1 as _ <-. eapply Hm, E2. }
    destruct f as [f|], idx as [i|]; [| | |apply mk_assign_top; [exact kn_envs|exact kn_top]]; intros s o s' E.
    - apply (Q (self (TCode (l_setidx G (fst (LookupEnv G s x)) i (Some f) R))) ltac:(apply Hs) s o s').
      destruct (LookupEnv G s x) as [w env]. destruct w; exact E.
    - apply (Q (call self f (Some (fst (LookupEnv G s x))) R) ltac:(apply Hs) s o s'). destruct (LookupEnv G s x) as [w env]. destruct w; exact E.
    - apply (Q (self (TCode (l_setidx G (fst (LookupEnv G s x)) i None R))) ltac:(apply Hs) s o s').
      destruct (LookupEnv G s x) as [w env]. destruct w; exact E.
  Qed.
  Lemma interp_names n t : mk keeps_names (interp G n t).
  Proof.
    revert t. induction n as [|n IH]; intros t; [intros s o s' H; discriminate|]. cbn [interp].
    apply (mk_step_but G keeps_names kn_envs kn_trans kn_top kn_env); [exact IH|]. intros. apply (mk_assign_call G keeps_names kn_envs kn_trans); [exact IH|].
    intros. apply kn_assignScalar, IH.
  Qed.
End Names.

(* the packages *)
Section Packages.
  Context {D X : Type} (G : lang D X).
  Local Notation value := (value D). Local Notation st := (st D X). Local Notation M := (M D X). Local Notation task := (task D X).
  Definition keeps_pkgs (s s' : st) : Prop := pkgs s' = pkgs s.
  Lemma kp_envs (s s' : st) : pkgs s' = pkgs s -> envs s' = envs s -> keeps_pkgs s s'. Proof. intros E _. exact E. Qed.
  Lemma kp_trans a b c : keeps_pkgs a b -> keeps_pkgs b c -> keeps_pkgs a c. Proof. unfold keeps_pkgs. congruence. Qed.
  Lemma kp_assign x v env (s : st) : pkgs (snd (AssignEnv G x v env s)) = pkgs s.
  Proof.
    unfold AssignEnv. destruct (isVarname x) as [ok isf]. destruct (negb ok); [reflexivity|].
    destruct x; try reflexivity; try (destruct v; try reflexivity; destruct (l_toBool G d); reflexivity); try (destruct (l_setpp G v (ext s)); reflexivity);
      (destruct (isFn v && _); [reflexivity|]; destruct (negb (isFn v) && _); [reflexivity|]); try reflexivity.
    destruct (match skipn _ _ with [] => false | _ => _ end); reflexivity.
  Qed.
  Lemma kp_massign x v env : mk keeps_pkgs (massign G x v env).
  Proof. intros s o s' H. unfold massign in H. pose proof (kp_assign x v env s) as Q. destruct (AssignEnv G x v env s). injection H as <- <-. exact Q. Qed.
  Lemma interp_pkgs n t : mk keeps_pkgs (interp G n t).
  Proof.
    revert t. induction n as [|n IH]; intros t; [intros s o s' H; discriminate|]. cbn [interp].
    apply (mk_step_but G keeps_pkgs kp_envs kp_trans); [intros; reflexivity|intros s s' vars H; exact H|exact IH|]. intros. apply (mk_assign_call G keeps_pkgs kp_envs kp_trans); [exact IH|].
    intros x idx f v. unfold assignScalar. assert (Q : forall w env m, mk keeps_pkgs m -> mk keeps_pkgs (fun s => match (w : value) with VNil => mfail s | _ => (do v <- m; match v with VNil => mret tt | _ => massign G x v env end) s end)).
    { intros w env m Hm. assert (Q1 : mk keeps_pkgs (do v <- m; match v with VNil => mret tt | _ => massign G x v env end)).
      { apply (mk_bind keeps_pkgs kp_trans); [exact Hm|]. intros u. destruct u; try apply kp_massign. apply (mk_ret keeps_pkgs kp_envs). }
      intros s o s' E. destruct w; try exact (Q1 s o s' E). exact (mk_fail keeps_pkgs kp_envs s o s' E). }
    destruct f as [f|], idx as [i|]; [| | |apply kp_massign]; intros s o s' E; destruct (LookupEnv G s x) as [w env] eqn:EL.
    - exact (Q w env (interp G n (TCode (l_setidx G w i (Some f) v))) (IH _) s o s' E).
    - exact (Q w env (interp G n (TCall f (Some w) v)) (IH _) s o s' E).
    - exact (Q w env (interp G n (TCode (l_setidx G w i None v))) (IH _) s o s' E).
  Qed.
End Packages.
