(* P_Eval3.v -- proofs about evaluation order, handlers, variables, guards, trains, packages. *)
From Verif Require Import Base M_Syntax M_Eval S_Eval P_Eval P_Eval2.
From Coq Require Import String List Lia.
Import ListNotations.
Open Scope list_scope.

Section E.
  Context {D X : Type} (G : lang D X).
  Local Notation value := (value D). Local Notation st := (st D X). Local Notation M := (M D X). Local Notation task := (task D X).
  Local Notation ends := (ends G). Local Notation conv := (conv G). Local Notation evaluates := (evaluates G). Local Notation calls := (calls G).
  Local Notation interp := (interp G).

  Lemma conv_ext {A} (F F' : (task -> M value) -> M A) s o s' : (forall i s, F i s = F' i s) -> (conv F s o s' <-> conv F' s o s').
  Proof. intros H. split; intros [n E]; exists n; [rewrite <- H|rewrite H]; exact E. Qed.
  Lemma conv_bind_v {A} (F : (task -> M value) -> M A) (K : (task -> M value) -> A -> M value) s o s' : mono F -> (forall a, mono (fun i => K i a)) ->
    (conv (fun i => mbind (F i) (K i)) s o s' <->
     (exists a s1, conv F s (Ok a) s1 /\ conv (fun i => K i a) s1 o s') \/ (exists o1, failed o1 /\ conv F s o1 s' /\ o = fmap_fail o1)).
  Proof. apply conv_bind. Qed.
  Lemma conv_bind_t t (K : (task -> M value) -> value -> M value) s o s' : (forall a, mono (fun i => K i a)) ->
    (conv (fun i => mbind (i t) (K i)) s o s' <->
     (exists a s1, ends t s (Ok a) s1 /\ conv (fun i => K i a) s1 o s') \/ (failed o /\ ends t s o s')).
  Proof.
    intros HK. rewrite (conv_bind G (fun i => i t) K s o s' (mono_self t) HK). split; (intros [H|H]; [left; exact H|right]).
    - destruct H as (o1 & Hf & H & ->). destruct Hf as [->| ->]; cbn; (split; [|exact H]); [left|right]; reflexivity.
    - destruct H as [Hf H]. exists o. split; [exact Hf|]. split; [exact H|]. destruct Hf as [->| ->]; reflexivity.
  Qed.
  Lemma conv_ok_bind_t t (K : (task -> M value) -> value -> M value) s o s' v s1 : (forall a, mono (fun i => K i a)) -> ends t s (Ok v) s1 ->
    (conv (fun i => mbind (i t) (K i)) s o s' <-> conv (fun i => K i v) s1 o s').
  Proof.
    intros HK Ht. rewrite (conv_bind_t t K s o s' HK). split.
    - intros [(a & s2 & H1 & H2)|[Hf H]].
      + destruct (ends_det G _ _ _ _ _ _ Ht H1) as [E ->]. injection E as <-. exact H2.
      + destruct (ends_det G _ _ _ _ _ _ Ht H) as [<- _]. destruct Hf; discriminate.
    - intros H. left. exists v, s1. split; assumption.
  Qed.
  Lemma conv_pure {A B} (a : A) (K : (task -> M value) -> A -> M B) s o s' : conv (fun i => mbind (mret a) (K i)) s o s' <-> conv (fun i => K i a) s o s'.
  Proof. reflexivity. Qed.

  Definition not_assign (f : func D) : Prop := match f with FDer op _ _ => op <> assign_op | _ => True end.

  Lemma mono_call_step (f : func D) (lv : option value) rv : mono (fun i : task -> M value => i (TCall f lv rv)).
  Proof. apply mono_self. Qed.
  (* C59 *)
  Lemma app_dyadic f l r s o s' : not_assign f ->
    (ends (TEval (EApp f (Some l) r false)) s o s' <->
     (failed o /\ ends (TEval r) s o s') \/
     (exists rv s1, evaluates r s rv s1 /\ failed o /\ ends (TEval l) s1 o s') \/
     (exists rv s1 lv s2, evaluates r s rv s1 /\ evaluates l s1 lv s2 /\ calls f (Some lv) rv s2 o s')).
  Proof.
    intros Hf. rewrite conv_step.
    rewrite (conv_ext _ (fun i => mbind (i (TEval r)) (fun rv => mbind (i (TEval l)) (fun lv => i (TCall f (Some lv) rv))))).
    2:{ intros i s0. cbn [step]. unfold eval, call. destruct f; cbn in Hf; try rewrite (proj2 (String.eqb_neq op assign_op) Hf); unfold mbind;
        (destruct (i (TEval r) s0) as [[[rv| |] sx]|]; try reflexivity); (destruct (i (TEval l) sx) as [[[?| |] ?]|]; reflexivity). }
    rewrite conv_bind_t by (intros a; apply mono_bind; [apply mono_self|intros; apply mono_self]).
    split.
    - intros [(rv & s1 & H1 & H2)|H]; [|left; exact H]. apply conv_bind_t in H2; [|intros; apply mono_self].
      destruct H2 as [(lv & s2 & H3 & H4)|[H3 H4]]; right; [right; exists rv, s1, lv, s2; auto|left; exists rv, s1; auto].
    - intros [H|[(rv & s1 & H1 & H2 & H3)|(rv & s1 & lv & s2 & H1 & H2 & H3)]]; [right; exact H|left; exists rv, s1; split; [exact H1|]..].
      + apply conv_bind_t; [intros; apply mono_self|]. right. split; assumption.
      + apply conv_bind_t; [intros; apply mono_self|]. left. exists lv, s2. split; assumption.
  Qed.
  Lemma app_monadic f r s o s' :
    (ends (TEval (EApp f None r false)) s o s' <->
     (failed o /\ ends (TEval r) s o s') \/ (exists rv s1, evaluates r s rv s1 /\ calls f None rv s1 o s')).
  Proof.
    rewrite conv_step.
    rewrite (conv_ext _ (fun i => mbind (i (TEval r)) (fun rv => i (TCall f None rv)))) by (intros i s0; reflexivity).
    rewrite conv_bind_t by (intros; apply mono_self). split; (intros [H|H]; [right|left]; exact H).
  Qed.

  (* C60 *)
  Lemma registered_app {H} (h1 h2 : list (string * H)) p : registered (h1 ++ h2) p = registered h2 p ++ registered h1 p.
  Proof.
    unfold registered. rewrite fold_left_app. generalize (fold_left (fun (m : string -> list H) ph q => if String.eqb (fst ph) q then snd ph :: m q else m q) h1 (fun _ => [])) as m.
    assert (Q : forall m n : string -> list H, (forall q, m q = n q ++ m p \/ True) -> True) by trivial. clear Q.
    assert (Q : forall (m n : string -> list H) (e : list H), m p = n p ++ e -> fold_left (fun (m : string -> list H) ph q => if String.eqb (fst ph) q then snd ph :: m q else m q) h2 m p =
      fold_left (fun (m : string -> list H) ph q => if String.eqb (fst ph) q then snd ph :: m q else m q) h2 n p ++ e).
    { induction h2 as [|[q h] h2 IH]; intros m n e E; [exact E|]. cbn [fold_left fst snd]. apply IH. destruct (String.eqb q p); [rewrite E; reflexivity|exact E]. }
    intros m. apply Q. reflexivity.
  Qed.
  Lemma registered_one {H} p (h : H) q : registered [(q, h)] p = if String.eqb q p then [h] else [].
  Proof. reflexivity. Qed.
  Lemma registered_In {H} (hist : list (string * H)) p h : In h (registered hist p) <-> In (p, h) hist.
  Proof.
    induction hist as [|[q h'] hist IH]; [reflexivity|]. change ((q, h') :: hist) with ([(q, h')] ++ hist). rewrite registered_app, in_app_iff, registered_one, IH. cbn [app In].
    destruct (String.eqb q p) eqn:E.
    - apply String.eqb_eq in E. subst q. cbn. split; [intros [H1|[<-|[]]]; auto|intros [H1|H1]; [injection H1 as <-|]; auto].
    - cbn. split; [tauto|]. intros [H1|H1]; [injection H1 as -> ->; rewrite String.eqb_refl in E; discriminate|auto].
  Qed.
  Lemma handlers_first hs1 h hs2 pick l r l' r' (s : st) i : (forall g, In g hs1 -> hto g (ext s) l r = None) -> hto h (ext s) l r = Some (l', r') ->
    try_handlers i (hs1 ++ h :: hs2) pick l r s = i (TCode (pick h l' r')) s.
  Proof.
    intros H1 H2. induction hs1 as [|g hs1 IH]; cbn; [rewrite H2; reflexivity|]. rewrite (H1 g (or_introl eq_refl)). apply IH. intros g' Hg. apply H1. right. exact Hg.
  Qed.
  Lemma handlers_none hs pick l r (s : st) i : (forall g, In g hs -> hto g (ext s) l r = None) -> try_handlers i hs pick l r s = Some (Err, s).
  Proof. intros H. induction hs as [|g hs IH]; cbn; [reflexivity|]. rewrite (H g (or_introl eq_refl)). apply IH. intros g' Hg. apply H. right. exact Hg. Qed.

  (* C61 *)
  Lemma lookup_env (s : st) x : variable x -> Lookup G s x = fst (find_env (envs s) x).
  Proof. destruct x; cbn; try contradiction; reflexivity. Qed.
  Lemma assign_lookup (s : st) x y v : envs s <> [] -> (match x with Num _ | Fun _ => True | _ => False end) ->
    Lookup G (snd (AssignEnv G y v None s)) x = if name_eqb y x && Bool.eqb (isFn v) (match x with Fun _ => true | _ => false end) then v else Lookup G s x.
  Proof.
    intros He Hx. assert (Hv : forall s : st, Lookup G s x = fst (find_env (envs s) x)) by (intros s0; apply lookup_env; destruct x; try contradiction; exact I). rewrite !Hv.
    assert (Hset : fst (find_env (envs (with_envs s (upd_height (envs s) (length (envs s) - 1) (fun f => fset f y v)))) x) = if name_eqb y x then v else fst (find_env (envs s) x)).
    { cbn [envs with_envs]. rewrite upd_height_top. destruct (envs s) as [|f e]; [congruence|]. cbn [find_env]. rewrite fget_fset. destruct (name_eqb y x); [reflexivity|]. destruct (fget f x); reflexivity. }
    assert (Hother : forall s2 : st, envs s2 = envs s -> name_eqb y x = false -> fst (find_env (envs s2) x) = if name_eqb y x && Bool.eqb (isFn v) (match x with Fun _ => true | _ => false end) then v else fst (find_env (envs s) x)).
    { intros s2 E1 E2. rewrite E1, E2. reflexivity. }
    unfold AssignEnv. destruct y as [y|y| | | | | | |p y fn|y]; cbn [isVarname negb].
    - destruct (isFn v) eqn:Ef; cbn [negb andb].
      + destruct x; try contradiction; cbn [name_eqb andb snd]; [rewrite andb_false_r|]; reflexivity.
      + cbn [snd]. rewrite Hset. destruct x; try contradiction; cbn [name_eqb andb Bool.eqb]; [rewrite andb_true_r|]; reflexivity.
    - destruct (isFn v) eqn:Ef; cbn [negb andb].
      + cbn [snd]. rewrite Hset. destruct x; try contradiction; cbn [name_eqb andb Bool.eqb]; [|rewrite andb_true_r]; reflexivity.
      + destruct x; try contradiction; cbn [name_eqb andb snd]; [|rewrite andb_false_r]; reflexivity.
    - destruct (isFn v && true); [destruct x; try contradiction; reflexivity|]. destruct (negb (isFn v) && false); [destruct x; try contradiction; reflexivity|].
      destruct (match skipn _ _ with [] => false | _ => _ end); [destruct x; try contradiction; reflexivity|]. cbn [snd]. rewrite Hset. destruct x; try contradiction; reflexivity.
    - destruct (isFn v && true); [destruct x; try contradiction; reflexivity|]. destruct (negb (isFn v) && false); [destruct x; try contradiction; reflexivity|].
      cbn [snd]. rewrite Hset. destruct x; try contradiction; reflexivity.
    - destruct x; try contradiction; reflexivity.
    - destruct x; try contradiction; reflexivity.
    - destruct v; try (destruct x; try contradiction; reflexivity). destruct (l_toBool G d); destruct x; try contradiction; reflexivity.
    - destruct (l_setpp G v (ext s)); destruct x; try contradiction; reflexivity.
    - destruct x; try contradiction; reflexivity.
    - destruct x; try contradiction; reflexivity.
  Qed.
  Lemma assign_envs y v (s : st) : envs s <> [] -> envs (snd (AssignEnv G y v None s)) <> [].
  Proof.
    intros He H. assert (K : keeps_names s (snd (AssignEnv G y v None s))).
    { pose proof (mk_assign_top G keeps_names kn_envs kn_top y v s) as Q. unfold massign in Q. destruct (AssignEnv G y v None s) as [o s1]. apply (Q o s1). reflexivity. }
    destruct K as [K _]. rewrite H in K. destruct (envs s); [congruence|discriminate].
  Qed.

  (* C63 *)
  Local Notation guards := (guards G).
  Lemma guards_mono gs ret : mono (fun i => guards i gs ret). Proof. intros a b H. apply le_guards, H. Qed.
  Lemma conv_eval_opt c K s (o : outcome (@gres D)) s' v s1 : (forall a, mono (fun i => K i a)) -> ends (TEval c) s (Ok v) s1 ->
    (conv (fun i => mbind (i (TEval c)) (K i)) s o s' <-> conv (fun i => K i v) s1 o s').
  Proof.
    intros HK Ht. rewrite (conv_bind G (fun i => i (TEval c)) K s o s' (mono_self _) HK). split.
    - intros [(a & s2 & H1 & H2)|(o1 & Hf & H & ->)].
      + destruct (ends_det G _ _ _ _ _ _ Ht H1) as [E ->]. injection E as <-. exact H2.
      + destruct (ends_det G _ _ _ _ _ _ Ht H) as [<- _]. destruct Hf; discriminate.
    - intros H. left. exists v, s1. split; assumption.
  Qed.
  Lemma not_self_call (e : option (expr D)) : ~ is_self_call e -> self_call e = None.
  Proof. destruct e as [e|]; [|reflexivity]. destruct e; try reflexivity. destruct f; try reflexivity. intros H. contradiction H. exact I. Qed.
  Lemma assign_not_self (e : expr D) : isAssign e = true -> self_call (Some e) = None.
  Proof. destruct e; try discriminate. destruct f; try discriminate. reflexivity. Qed.
  Definition after (isa : bool) (gs : list (guard D)) (ret : value) (i : task -> M value) (v : option value) : M (@gres D) :=
    match v with None | Some VNil => guards i gs ret | Some v => if isa then guards i gs v else mret (GVal v) end.
  Lemma after_mono isa gs ret v : mono (fun i => after isa gs ret i v).
  Proof. intros a b H. unfold after. destruct v as [v|]; [|apply le_guards, H]. destruct v; try (apply le_guards, H); destruct isa; try (apply le_guards, H); apply le_refl. Qed.
  Lemma guards_cons c e gs ret i s : (match c with None => true | Some _ => false end && match gs with [] => false | _ => true end && negb (isAssignment e) = false) -> self_call e = None ->
    guards i (Guard c e :: gs) ret s = mbind (guard_eval G i c e) (after (isAssignment e) gs ret i) s.
  Proof.
    intros H1 H2. cbn [M_Eval.guards]. rewrite H1, H2. unfold mbind. destruct (guard_eval G i c e s) as [[[v| |] s1]|]; try reflexivity.
  Qed.
  Lemma guard_eval_mono c e : mono (fun i => guard_eval G i c e). Proof. intros a b H. apply le_guard_eval, H. Qed.
  Lemma conv_cons c e gs ret s o s' : (match c with None => true | Some _ => false end && match gs with [] => false | _ => true end && negb (isAssignment e) = false) -> self_call e = None ->
    (conv (fun i => guards i (Guard c e :: gs) ret) s o s' <->
     (exists v s1, conv (fun i => guard_eval G i c e) s (Ok v) s1 /\ conv (fun i => after (isAssignment e) gs ret i v) s1 o s') \/
     (exists o1, failed o1 /\ conv (fun i => guard_eval G i c e) s o1 s' /\ o = fmap_fail o1)).
  Proof.
    intros H1 H2. rewrite (conv_ext _ (fun i => mbind (guard_eval G i c e) (after (isAssignment e) gs ret i))) by (intros; apply guards_cons; assumption).
    apply conv_bind; [apply guard_eval_mono|intros; apply after_mono].
  Qed.
  Lemma conv_guard_det c e s o1 s1 o2 s2 : conv (fun i => guard_eval G i c e) s o1 s1 -> conv (fun i => guard_eval G i c e) s o2 s2 -> o1 = o2 /\ s1 = s2.
  Proof.
    intros [n H1] [m H2]. apply (conv_more G (fun i => guard_eval G i c e) n (n + m) s _ (guard_eval_mono c e) ltac:(lia)) in H1. apply (conv_more G (fun i => guard_eval G i c e) m (n + m) s _ (guard_eval_mono c e) ltac:(lia)) in H2. rewrite H1 in H2. injection H2 as -> ->. split; reflexivity.
  Qed.
  Lemma guard_false c e s v s1 : evaluates c s v s1 -> truth G v = Some false -> conv (fun i => guard_eval G i (Some c) e) s (Ok None) s1.
  Proof. intros [n H] T. exists n. cbn. unfold eval, mbind. rewrite H. unfold truth in T. destruct v; try discriminate. rewrite T. reflexivity. Qed.
  Lemma guard_nobool c e s v s1 : evaluates c s v s1 -> truth G v = None -> conv (fun i => guard_eval G i (Some c) e) s Err s1.
  Proof. intros [n H] T. exists n. cbn. unfold eval, mbind. rewrite H. unfold truth in T. destruct v; try reflexivity. rewrite T. reflexivity. Qed.
  Lemma guard_cfail c e s o s1 : failed o -> ends (TEval c) s o s1 -> conv (fun i => guard_eval G i (Some c) e) s (fmap_fail o) s1.
  Proof. intros Hf [n H]. exists n. cbn. unfold eval, mbind. rewrite H. destruct Hf as [->| ->]; reflexivity. Qed.
  Definition some_ok (o : outcome value) : outcome (option value) := match o with Ok v => Ok (Some v) | Err => Err | Panic => Panic end.
  Lemma guard_none e s o s1 : ends (TEval e) s o s1 -> conv (fun i => guard_eval G i None (Some e)) s (some_ok o) s1.
  Proof. intros [n H]. exists n. cbn. unfold eval, mbind. rewrite H. destruct o; reflexivity. Qed.
  Lemma guard_none_inv e s o s1 : conv (fun i => guard_eval G i None (Some e)) s o s1 -> exists o', ends (TEval e) s o' s1 /\ o = some_ok o'.
  Proof.
    intros [n H]. cbn in H. unfold eval, mbind in H. destruct (interp n (TEval e) s) as [[o' s2]|] eqn:E; [|discriminate]. exists o'. destruct o'; injection H as <- <-; (split; [exists n; exact E|reflexivity]).
  Qed.
  Lemma guard_true c e s v s1 o s2 : evaluates c s v s1 -> truth G v = Some true -> ends (TEval e) s1 o s2 -> conv (fun i => guard_eval G i (Some c) (Some e)) s (some_ok o) s2.
  Proof.
    intros [n H] T [m H2]. exists (n + m)%nat. cbn. unfold eval, mbind. rewrite (interp_mono G n (n + m) _ ltac:(lia) _ _ H). unfold truth in T. destruct v; try discriminate. rewrite T.
    rewrite (interp_mono G m (n + m) _ ltac:(lia) _ _ H2). destruct o; reflexivity.
  Qed.
  Lemma guard_true_inv c e s v s1 o s2 : evaluates c s v s1 -> truth G v = Some true -> conv (fun i => guard_eval G i (Some c) (Some e)) s o s2 -> exists o', ends (TEval e) s1 o' s2 /\ o = some_ok o'.
  Proof.
    intros Hc T [n H]. cbn in H. unfold eval in H. unfold mbind at 1 in H. destruct (interp n (TEval c) s) as [[o1 s3]|] eqn:E; [|discriminate].
    assert (Q : ends (TEval c) s o1 s3) by (exists n; exact E). destruct (ends_det G _ _ _ _ _ _ Hc Q) as [<- <-]. unfold truth in T. destruct v; try discriminate. rewrite T in H. unfold mbind in H.
    destruct (interp n (TEval e) s1) as [[o' s4]|] eqn:E2; [|discriminate]. exists o'. destruct o'; injection H as <- <-; (split; [exists n; exact E2|reflexivity]).
  Qed.
  Lemma guards_pass gs rest ret s ret' s1 o s' : passes G gs ret s ret' s1 ->
    (conv (fun i => guards i (gs ++ rest) ret) s o s' <-> conv (fun i => guards i rest ret') s1 o s').
  Proof.
    assert (Hdet : forall c e gs ret s s1 v, self_call e = None -> (match c with None => true | Some _ => false end && match gs ++ rest with [] => false | _ => true end && negb (isAssignment e) = false) ->
      conv (fun i => guard_eval G i c e) s (Ok v) s1 ->
      (conv (fun i => guards i (Guard c e :: (gs ++ rest)) ret) s o s' <-> conv (fun i => after (isAssignment e) (gs ++ rest) ret i v) s1 o s')).
    { intros c e gs0 ret0 s0 s2 v He Hc Hg. rewrite conv_cons by assumption. split.
      - intros [(v' & s3 & H1 & H2)|(o1 & Hf & H1 & _)]; destruct (conv_guard_det _ _ _ _ _ _ _ Hg H1) as [E <-]; [injection E as <-; exact H2|]. subst o1. destruct Hf; discriminate.
      - intros H. left. exists v, s2. split; assumption. }
    induction 1 as [ret s|c e gs ret s v s1 ret' s2 Hn Hc Ht H IH|e gs ret s v s1 ret' s2 Ha He Hv H IH|c e gs ret s v s1 w s2 ret' s3 Ha Hc Ht He Hw H IH].
    - reflexivity.
    - cbn [app]. rewrite (Hdet (Some c) e gs ret s s1 None (not_self_call e Hn) eq_refl (guard_false _ _ _ _ _ Hc Ht)). exact IH.
    - cbn [app]. rewrite (Hdet None (Some e) gs ret s s1 (Some v)); [|apply assign_not_self, Ha|cbn [isAssignment]; rewrite Ha; destruct (gs ++ rest); reflexivity|apply (guard_none e s (Ok v) s1 He)].
      rewrite <- IH. cbn [isAssignment]. rewrite Ha. unfold after. destruct v; try congruence; reflexivity.
    - cbn [app]. rewrite (Hdet (Some c) (Some e) gs ret s s2 (Some w)); [|apply assign_not_self, Ha|reflexivity|apply (guard_true c e s v s1 (Ok w) s2 Hc Ht He)].
      rewrite <- IH. cbn [isAssignment]. rewrite Ha. unfold after. destruct w; try congruence; reflexivity.
  Qed.

  (* the call of a lambda *)
  Definition cont' (body : list (guard D)) (l : option value) (i : task -> M value) (v : @gres D) : M value :=
    match v with
    | GVal v => mret v
    | GTail tl tr => mbind (eval i tr) (fun r' => mbind (match tl with None => mret l | Some e => mbind (eval i e) (fun v => mret (Some v)) end) (fun l' => i (TLoop body l' r')))
    end.
  Lemma cont_mono body l v : mono (fun i => cont' body l i v).
  Proof.
    intros a b H. destruct v as [v|tl tr]; [apply le_refl|]. cbn [cont']. apply le_bind; [apply H|]. intros r'. apply le_bind; [|intros; apply H]. destruct tl; [|apply le_refl]. apply le_bind; [apply H|intros; apply le_refl].
  Qed.
  Lemma enter_args body l r (s : st) : set_top Omega r (set_top Alpha (optv l) (with_envs s ([(Nabla, VFn (FLam body))] :: envs s))) = enter body l r s.
  Proof. unfold set_top, enter, with_envs. cbn [envs]. rewrite !upd_height_top. reflexivity. Qed.
  Lemma pop_leave (s s1 : st) body l r t o : ends t (enter body l r s) o s1 -> with_envs s1 (skipn (length (envs s1) - length (envs s)) (envs s1)) = leave s1.
  Proof.
    intros [n H]. apply interp_names in H as [L _]. cbn in L. unfold leave. destruct (envs s1) as [|f e]; [discriminate|]. cbn [length tl] in *. replace (S (length e) - length (envs s))%nat with 1%nat by lia. reflexivity.
  Qed.
  Lemma lambda_call body l r s o s' : body <> [] ->
    (calls (FLam body) l r s o s' <-> exists s1, conv (fun i => mbind (guards i body (VD (l_emptyD G))) (cont' body l i)) (enter body l r s) o s1 /\ s' = leave s1).
  Proof.
    intros Hb. set (push := with_envs s ([(Nabla, VFn (FLam body))] :: envs s)).
    assert (Q : forall o s1, ends (TLoop body l r) push o s1 <-> conv (fun i => mbind (guards i body (VD (l_emptyD G))) (cont' body l i)) (enter body l r s) o s1).
    { intros o1 s1. rewrite conv_step. rewrite <- enter_args. split; intros [n H]; exists n; exact H. }
    assert (P : forall o s1, ends (TLoop body l r) push o s1 -> with_envs s1 (skipn (length (envs s1) - length (envs s)) (envs s1)) = leave s1).
    { intros o1 s1 [n H]. apply interp_names in H as [L _]. cbn in L. unfold leave. destruct (envs s1) as [|f e]; [discriminate|]. cbn [length tl] in *. replace (S (length e) - length (envs s))%nat with 1%nat by lia. reflexivity. }
    unfold S_Eval.calls. rewrite conv_step. split.
    - intros [n H]. cbn [step] in H. destruct body as [|g gs]; [congruence|]. unfold in_env in H. destruct (interp n _ _) as [[o1 s1]|] eqn:E; [|discriminate]. injection H as -> <-.
      exists s1. assert (E' : ends (TLoop (g :: gs) l r) push o s1) by (exists n; exact E). split; [apply Q, E'|apply (P o), E'].
    - intros (s1 & H & ->). apply Q in H. pose proof H as [n E]. exists n. cbn [step]. destruct body as [|g gs]; [congruence|]. unfold in_env.
      replace (interp n (TLoop (g :: gs) l r) _) with (Some (o, s1)) by (symmetry; exact E). rewrite (P _ _ H). reflexivity.
  Qed.
  Lemma conv_cont gs body l s o s' : (forall o s', conv (fun i => guards i gs (VD (l_emptyD G))) s o s' -> forall tl tr, o <> Ok (GTail tl tr)) ->
    (conv (fun i => mbind (guards i gs (VD (l_emptyD G))) (cont' body l i)) s o s' <->
     conv (fun i => guards i gs (VD (l_emptyD G))) s (match o with Ok v => Ok (GVal v) | Err => Err | Panic => Panic end) s').
  Proof.
    intros Hnt. rewrite conv_bind by (try apply guards_mono; intros; apply cont_mono). split.
    - intros [(a & s1 & H1 & H2)|(o1 & Hf & H1 & ->)].
      + destruct a as [v|tl tr]; [|exfalso; exact (Hnt _ _ H1 tl tr eq_refl)]. cbn [cont'] in H2. apply conv_ret in H2 as [-> ->]. exact H1.
      + destruct Hf as [->| ->]; exact H1.
    - destruct o as [v| |]; intros H; [left; exists (GVal v), s'; split; [exact H|apply conv_ret; auto]|right; eexists; split; [|split; [exact H|reflexivity]]..]; [left|right]; reflexivity.
  Qed.

  (* C65 *)
  Lemma ends_fn f (s : st) : ends (TEval (EFn f)) s (Ok (VFn f)) s. Proof. exists 1%nat. reflexivity. Qed.
  Lemma atop_mono a b l r : mono (fun i : task -> M value => atop i a b l r).
  Proof. intros i j H. unfold atop, asFunc, call. mono. Qed.
  Lemma fork_mono a b c l r : mono (fun i : task -> M value => fork i a b c l r).
  Proof. intros i j H. unfold fork, asFunc, call. mono. Qed.
  Lemma atop_calls g h l r s o s' : conv (fun i => atop i (VFn g) (VFn h) l r) s o s' <-> then_calls G h l r s (fun v s1 o s' => calls g None v s1 o s') o s'.
  Proof.
    rewrite (conv_ext _ (fun i => mbind (i (TCall h l r)) (fun v => i (TCall g None v)))) by (intros; reflexivity). apply conv_bind_t. intros. apply mono_self.
  Qed.
  Lemma fork_calls f g h l r s o s' : conv (fun i => fork i (VFn f) (VFn g) (VFn h) l r) s o s' <->
    then_calls G f l r s (fun lv s1 => then_calls G h l r s1 (fun rv s2 => calls g (Some lv) rv s2)) o s'.
  Proof.
    rewrite (conv_ext _ (fun i => mbind (i (TCall f l r)) (fun lv => mbind (i (TCall h l r)) (fun rv => i (TCall g (Some lv) rv))))) by (intros; reflexivity).
    rewrite conv_bind_t by (intros; apply mono_bind; intros; apply mono_self). unfold then_calls at 1. split; (intros [(v & s1 & H1 & H2)|H]; [left; exists v, s1; split; [exact H1|]|right; exact H]).
    - apply conv_bind_t in H2; [exact H2|intros; apply mono_self].
    - apply conv_bind_t; [intros; apply mono_self|exact H2].
  Qed.
  Lemma fork_value a g h l r s o s' : isFn a = false -> (conv (fun i => fork i a (VFn g) (VFn h) l r) s o s' <-> then_calls G h l r s (fun rv s2 => calls g (Some a) rv s2) o s').
  Proof.
    intros Ha. rewrite (conv_ext _ (fun i => mbind (i (TCall h l r)) (fun rv => i (TCall g (Some a) rv)))) by (intros; destruct a; try discriminate; reflexivity).
    apply conv_bind_t. intros. apply mono_self.
  Qed.
  Lemma train2 e0 e1 l r s o s' a b s1 s2 : evaluates e0 s a s1 -> evaluates e1 s1 b s2 ->
    (calls (FTrain [e0; e1]) l r s o s' <-> conv (fun i => atop i a b l r) s2 o s').
  Proof.
    intros H0 H1. unfold S_Eval.calls. rewrite conv_step. cbn [step train]. unfold eval.
    rewrite (conv_ok_bind_t (TEval e0) (fun i a => mbind (i (TEval e1)) (fun b => atop i a b l r)) s o s' a s1) by (first [exact H0 | intros; apply mono_bind; [apply mono_self|intros; apply atop_mono]]).
    rewrite (conv_ok_bind_t (TEval e1) (fun i b => atop i a b l r) s1 o s' b s2) by (first [exact H1 | intros; apply atop_mono]). reflexivity.
  Qed.
  Lemma train3 e0 e1 e2 l r s o s' a b c s1 s2 s3 : evaluates e0 s a s1 -> evaluates e1 s1 b s2 -> evaluates e2 s2 c s3 ->
    (calls (FTrain [e0; e1; e2]) l r s o s' <-> conv (fun i => fork i a b c l r) s3 o s').
  Proof.
    intros H0 H1 H2. unfold S_Eval.calls. rewrite conv_step. cbn [step train]. unfold eval.
    rewrite (conv_ok_bind_t (TEval e0) (fun i a => mbind (i (TEval e1)) (fun b => mbind (i (TEval e2)) (fun c => fork i a b c l r))) s o s' a s1)
      by (first [exact H0 | intros; apply mono_bind; [apply mono_self|intros; apply mono_bind; [apply mono_self|intros; apply fork_mono]]]).
    rewrite (conv_ok_bind_t (TEval e1) (fun i b => mbind (i (TEval e2)) (fun c => fork i a b c l r)) s1 o s' b s2) by (first [exact H1 | intros; apply mono_bind; [apply mono_self|intros; apply fork_mono]]).
    rewrite (conv_ok_bind_t (TEval e2) (fun i c => fork i a b c l r) s2 o s' c s3) by (first [exact H2 | intros; apply fork_mono]). reflexivity.
  Qed.
  Lemma train_even e0 t l r s o s' : (3 <= length t)%nat -> Nat.odd (length t) = true ->
    (calls (FTrain (e0 :: t)) l r s o s' <-> calls (FTrain [e0; EFn (FTrain t)]) l r s o s').
  Proof.
    intros H3 Ho. unfold S_Eval.calls. rewrite !conv_step. cbn [step]. destruct t as [|e1 [|e2 [|e3 t]]]; cbn [length] in H3; try lia.
    assert (Ev : Nat.even (length (e0 :: e1 :: e2 :: e3 :: t)) = true) by (cbn [length] in *; rewrite Nat.even_succ; exact Ho).
    rewrite (conv_ext _ (fun i => mbind (i (TEval e0)) (fun a => atop i a (VFn (FTrain (e1 :: e2 :: e3 :: t))) l r))) by (intros; unfold train; rewrite Ev; reflexivity).
    cbn [train]. unfold eval. rewrite (conv_bind_t (TEval e0)) by (intros; apply atop_mono). rewrite (conv_bind_t (TEval e0)) by (intros; apply mono_bind; [apply mono_self|intros; apply atop_mono]).
    split; (intros [(a & s1 & H1 & H2)|H]; [left; exists a, s1; split; [exact H1|]|right; exact H]).
    - eapply conv_ok_bind_t; [intros; apply atop_mono|apply ends_fn|exact H2].
    - eapply (conv_ok_bind_t (TEval (EFn (FTrain (e1 :: e2 :: e3 :: t)))) (fun i b => atop i a b l r)) in H2; [exact H2|intros; apply atop_mono|apply ends_fn].
  Qed.
  Lemma train_odd e0 e1 t l r s o s' : (2 <= length t)%nat -> Nat.odd (length t) = true ->
    (calls (FTrain (e0 :: e1 :: t)) l r s o s' <-> calls (FTrain [e0; e1; EFn (FTrain t)]) l r s o s').
  Proof.
    intros H3 Ho. unfold S_Eval.calls. rewrite !conv_step. cbn [step]. destruct t as [|e2 [|e3 t]]; cbn [length] in H3; try lia.
    assert (Ev : Nat.even (length (e0 :: e1 :: e2 :: e3 :: t)) = false) by (cbn [length] in *; rewrite Nat.even_succ, Nat.odd_succ; rewrite <- Nat.negb_odd, Ho; reflexivity).
    rewrite (conv_ext _ (fun i => mbind (i (TEval e0)) (fun a => mbind (i (TEval e1)) (fun b => fork i a b (VFn (FTrain (e2 :: e3 :: t))) l r)))) by (intros; unfold train; rewrite Ev; reflexivity).
    cbn [train]. unfold eval. rewrite (conv_bind_t (TEval e0)) by (intros; apply mono_bind; [apply mono_self|intros; apply fork_mono]).
    rewrite (conv_bind_t (TEval e0)) by (intros; apply mono_bind; [apply mono_self|intros; apply mono_bind; [apply mono_self|intros; apply fork_mono]]).
    split; (intros [(a & s1 & H1 & H2)|H]; [left; exists a, s1; split; [exact H1|]|right; exact H]).
    - apply conv_bind_t in H2; [|intros; apply fork_mono]. apply conv_bind_t; [intros; apply mono_bind; [apply mono_self|intros; apply fork_mono]|].
      destruct H2 as [(b & s2 & H4 & H5)|H]; [left; exists b, s2; split; [exact H4|]|right; exact H].
      eapply conv_ok_bind_t; [intros; apply fork_mono|apply ends_fn|exact H5].
    - apply conv_bind_t in H2; [|intros; apply mono_bind; [apply mono_self|intros; apply fork_mono]]. apply conv_bind_t; [intros; apply fork_mono|].
      destruct H2 as [(b & s2 & H4 & H5)|H]; [left; exists b, s2; split; [exact H4|]|right; exact H].
      eapply (conv_ok_bind_t (TEval (EFn (FTrain (e2 :: e3 :: t)))) (fun i c => fork i a b c l r)) in H5; [exact H5|intros; apply fork_mono|apply ends_fn].
  Qed.

  (* C66 *)
  Lemma eval_prog_pkgs n p : mk keeps_pkgs (eval_prog G n p).
  Proof.
    induction p as [|e p IH]; cbn [eval_prog]; [apply (mk_ret keeps_pkgs kp_envs)|]. apply (mk_bind keeps_pkgs kp_trans); [apply interp_pkgs|]. intros v.
    apply (mk_bind keeps_pkgs kp_trans); [|intros; exact IH]. destruct (isAssign e); [apply (mk_ret keeps_pkgs kp_envs)|].
    destruct v; intros s o s' E; injection E as <- <-; reflexivity.
  Qed.
  Lemma Eval_pkgs n p : mk keeps_pkgs (Eval G n p).
  Proof.
    intros s o s' E. unfold Eval in E. destruct (eval_prog G n p s) as [[o1 s1]|] eqn:E1; [|discriminate]. apply eval_prog_pkgs in E1. destruct o1; injection E as <- <-; exact E1.
  Qed.
  Lemma EvalFile_pkgs n ps : mk keeps_pkgs (EvalFile G n ps).
  Proof.
    induction ps as [|p ps IH]; cbn [EvalFile]; [apply (mk_ret keeps_pkgs kp_envs)|]. destruct p as [p| |]; try apply (mk_fail keeps_pkgs kp_envs).
    apply (mk_bind keeps_pkgs kp_trans); [apply Eval_pkgs|intros; exact IH].
  Qed.
  Lemma Eval_no_panic n p s o s' : Eval G n p s = Some (o, s') -> o <> Panic.
  Proof. unfold Eval. destruct (eval_prog G n p s) as [[[[]| |] s1]|]; intros E; try discriminate; injection E as <- <-; discriminate. Qed.
  Lemma EvalFile_no_panic n ps s o s' : EvalFile G n ps s = Some (o, s') -> o <> Panic.
  Proof.
    revert s. induction ps as [|p ps IH]; intros s E; cbn in E; [injection E as <- <-; discriminate|]. destruct p as [p| |]; try (injection E as <- <-; discriminate).
    unfold mbind in E. destruct (Eval G n p s) as [[o1 s1]|] eqn:E1; [|discriminate]. apply Eval_no_panic in E1. destruct o1; [eapply IH, E|injection E as <- <-; discriminate|congruence].
  Qed.
End E.
