(* Prop_Eval.v -- properties of the interpreter: order of evaluation (C59), handlers (C60),
   variables (C61), lambdas (C62-C64), trains (C65), packages (C66). *)
From Verif Require Import Base M_Syntax M_Eval S_Eval P_Eval P_Eval2 P_Eval3 P_Tail.
From Coq Require Import String List Lia.
Import ListNotations.
Open Scope list_scope.

Section Props.
  Context {D X : Type} (G : lang D X).
  Local Notation value := (value D). Local Notation st := (st D X).
  Local Notation expr := (expr D). Local Notation func := (func D).
  Local Notation ends := (ends G). Local Notation evaluates := (evaluates G). Local Notation calls := (calls G).

  (* A function is not the assignment arrow. *)
  Definition is_function (f : func) : Prop := match f with FDer op _ _ => op <> assign_op | _ => True end.
  (* C59: L F R ends with o in s' exactly if the right argument fails with o, or it has a
     value and then the left argument fails with o, or both have values, the right one
     first, and then the call of F with these values ends with o.  *)
  Theorem C59_right_to_left f l r s o s' : is_function f ->
    (ends (TEval (EApp f (Some l) r false)) s o s' <->
     (failed o /\ ends (TEval r) s o s') \/
     (exists rv s1, evaluates r s rv s1 /\ failed o /\ ends (TEval l) s1 o s') \/
     (exists rv s1 lv s2, evaluates r s rv s1 /\ evaluates l s1 lv s2 /\ calls f (Some lv) rv s2 o s')).
  Proof. apply app_dyadic. Qed.
  Theorem C59_monadic f r s o s' :
    (ends (TEval (EApp f None r false)) s o s' <->
     (failed o /\ ends (TEval r) s o s') \/ (exists rv s1, evaluates r s rv s1 /\ calls f None rv s1 o s')).
  Proof. apply app_monadic. Qed.
  (* a computation has at most one outcome *)
  Theorem C59_deterministic t s o1 s1 o2 s2 : ends t s o1 s1 -> ends t s o2 s2 -> o1 = o2 /\ s1 = s2.
  Proof. apply ends_det. Qed.

  (* C60: hist is the history of registrations, the oldest first.  A handler h of the
     primitive p that accepts the arguments is run if no later handler of p accepts them. *)
  Theorem C60_latest_handler hist p h h1 h2 l r l' r' s o s' : l_primitives G = registered hist -> hist = h1 ++ (p, h) :: h2 ->
    hto h (ext s) l r = Some (l', r') -> (forall g, In (p, g) h2 -> hto g (ext s) l r = None) ->
    (calls (FPrim p) l r s o s' <-> ends (TCode (hcall h l' r')) s o s').
  Proof.
    intros HG -> Ha Hn. assert (E : forall i, step G i (TCall (FPrim p) l r) s = i (TCode (hcall h l' r')) s).
    { intros i. cbn [step]. rewrite HG. change (h1 ++ (p, h) :: h2) with (h1 ++ [(p, h)] ++ h2). rewrite registered_app, registered_app, registered_one, String.eqb_refl.
      rewrite <- app_assoc. apply handlers_first; [|exact Ha]. intros g Hg. apply Hn. apply registered_In, Hg. }
    unfold S_Eval.calls. rewrite conv_step. split; intros [n H]; exists n; [rewrite <- E|rewrite E]; exact H.
  Qed.
  Theorem C60_no_handler hist p l r s : l_primitives G = registered hist -> (forall g, In (p, g) hist -> hto g (ext s) l r = None) -> calls (FPrim p) l r s Err s.
  Proof. intros HG H. exists 1%nat. cbn [interp step]. rewrite HG. apply handlers_none. intros g Hg. apply H. apply registered_In, Hg. Qed.

  (* C61: after any history of assignments in an environment, a variable has the value of
     its latest accepted assignment (a name with an upper case first letter does not accept a
     function, one with a lower case letter nothing else), and the value it had before if
     there is none. *)
  Theorem C61_latest h s x : envs s <> [] -> (match x with Num _ | Fun _ => True | _ => False end) -> Lookup G (assign_all G h s) x = latest x (Lookup G s x) h.
  Proof.
    intros He Hx. unfold assign_all. revert s He. induction h as [|[y v] h IH]; intros s He; [reflexivity|]. cbn [fold_left fst snd latest].
    rewrite IH by (apply assign_envs, He). rewrite assign_lookup by assumption. reflexivity.
  Qed.
  Theorem C61_unknown pkgs origin out ext x : (match x with Num _ | Fun _ => True | _ => False end) -> Lookup G (mkSt [[]] pkgs origin out ext) x = VNil.
  Proof. intros Hx. destruct x; try contradiction; reflexivity. Qed.
  (* the expression X←e; for a function the target is the expression of the function
     variable *)
  Definition target (x : name) : expr := match x with Fun _ => EFn (FVar x) | _ => EVar x end.
  Definition assign (x : name) (e : expr) : expr := EApp (FDer assign_op (Some (target x)) None) None e false.
  Theorem C61_expression x e s v s1 : (match x with Num _ => isFn v = false | Fun _ => isFn v = true | _ => False end) -> evaluates e s v s1 -> envs s1 <> [] ->
    exists s2, evaluates (assign x e) s v s2 /\ Lookup G s2 x = v /\
      (forall y, variable y -> y <> x -> Lookup G s2 y = Lookup G s1 y) /\ tl (envs s2) = tl (envs s1) /\ out s2 = out s1 /\ origin s2 = origin s1 /\ pkgs s2 = pkgs s1 /\ ext s2 = ext s1.
  Proof.
    intros Hx He Hn. set (s2 := with_envs s1 (upd_height (envs s1) (length (envs s1) - 1) (fun f => fset f x v))).
    assert (A : AssignEnv G x v None s1 = (Ok tt, s2)). { destruct x; try contradiction; unfold AssignEnv; cbn [isVarname negb]; rewrite Hx; reflexivity. }
    exists s2. split; [|split; [|split; [|split; [|repeat split]]]].
    - apply app_monadic. right. exists v, s1. split; [exact He|]. exists 1%nat. cbn [interp step]. unfold derived_call. rewrite String.eqb_refl.
      assert (Q : forall i, assign_call G i (Some (target x)) None v = mbind (massign G x v None) (fun _ => mret v)) by (intros i; destruct x; try contradiction; reflexivity).
      rewrite Q. unfold mbind, massign. rewrite A. reflexivity.
    - rewrite lookup_env by (destruct x; try contradiction; exact I). unfold s2. cbn [envs with_envs]. rewrite upd_height_top. destruct (envs s1) as [|f es]; [congruence|]. cbn [find_env]. rewrite fget_fset, name_eqb_refl. reflexivity.
    - intros y Hy Hyx. rewrite !lookup_env by exact Hy. unfold s2. cbn [envs with_envs]. rewrite upd_height_top. destruct (envs s1) as [|f es]; [congruence|]. cbn [find_env]. rewrite fget_fset, name_eqb_neq by congruence. reflexivity.
    - unfold s2. cbn [envs with_envs]. rewrite upd_height_top. destruct (envs s1); reflexivity.
  Qed.

  (* C62: any computation, successful or not, returns to the environment it was started in,
     and calling a lambda adds no variable to the environments of the caller. *)
  Theorem C62_environment_restored t s o s' : ends t s o s' -> length (envs s') = length (envs s).
  Proof. intros [n H]. apply interp_names in H. apply H. Qed.
  Theorem C62_no_new_variables body l r s o s' : calls (FLam body) l r s o s' -> variable_names s' = variable_names s.
  Proof.
    intros [n H]. destruct n as [|n]; [discriminate|]. cbn [interp step] in H. destruct body as [|g gs]; [injection H as <- <-; reflexivity|]. unfold in_env in H.
    destruct (interp G n _ _) as [[o1 s1]|] eqn:E; [|discriminate]. injection H as <- <-. apply interp_names in E. unfold variable_names. cbn [envs with_envs]. exact (kn_env_all s s1 _ E).
  Qed.
  (* If no modified or indexed assignment is executed during the call of a lambda (these
     change the variable where it is found), the variables of the caller are unchanged. *)
  Theorem C62_caller_unchanged body l r s o s' : ends_with plain (step G) (TCall (FLam body) l r) s o s' -> calls (FLam body) l r s o s' /\ envs s' = envs s.
  Proof.
    intros [n H]. split; [exists n; apply (run_interp G plain n), H|]. destruct n as [|n]; [discriminate|]. cbn [run plain] in H. cbn [step] in H. destruct body as [|g gs]; [injection H as <- <-; reflexivity|].
    eapply in_env_outer, H.
  Qed.
  (* a call of EnvCall (the functions given to a table query or an index) as well *)
  Theorem C62_env_call f l r vars k s o s1 : ends (TCall f l r) (with_envs s (vars :: envs s)) o s1 -> o <> Panic ->
    forall o' s', ends (TCode (k o)) (leave s1) o' s' -> ends (TCode (CEnvCall f l r vars k)) s o' s'.
  Proof.
    intros [n H] Ho o' s' [m H2]. exists (S (n + m)). cbn [interp step]. unfold mtry, in_env, call. rewrite (interp_mono G n (n + m) _ ltac:(lia) _ _ H).
    assert (Q : with_envs s1 (skipn (length (envs s1) - length (envs s)) (envs s1)) = leave s1).
    { apply interp_names in H as [L _]. cbn in L. unfold leave. destruct (envs s1) as [|f1 e]; [discriminate|]. cbn [length tl] in *. replace (S (length e) - length (envs s))%nat with 1%nat by lia. reflexivity. }
    rewrite Q. destruct o; try congruence; apply (interp_mono G m (n + m) _ ltac:(lia) _ _ H2).
  Qed.

  (* C63.  gs are the statements before the one that is considered; passes says that they
     are executed without reaching a result. *)
  Local Notation empty := (VD (l_emptyD G)).
  Theorem C63_first_true gs c e rest l r s ret s1 v s2 o s' : passes G gs empty (enter (gs ++ Guard (Some c) (Some e) :: rest) l r s) ret s1 ->
    evaluates c s1 v s2 -> truth G v = Some true -> isAssign e = false -> ~ is_self_call (Some e) -> (forall s3, ~ evaluates e s2 VNil s3) ->
    (calls (FLam (gs ++ Guard (Some c) (Some e) :: rest)) l r s o s' <-> exists s3, ends (TEval e) s2 o s3 /\ s' = leave s3).
  Proof.
    intros Hp Hc Ht Ha Hs Hn. rewrite lambda_call by (destruct gs; discriminate).
    assert (Q : forall o s3, conv G (fun i => guards G i (gs ++ Guard (Some c) (Some e) :: rest) empty) (enter (gs ++ Guard (Some c) (Some e) :: rest) l r s) o s3 <->
      exists o1, ends (TEval e) s2 o1 s3 /\ o = match o1 with Ok v => Ok (GVal v) | Err => Err | Panic => Panic end).
    { intros o1 s3. rewrite (guards_pass G _ _ _ _ _ _ _ _ Hp). rewrite conv_cons by (try reflexivity; apply not_self_call, Hs). cbn [isAssignment]. rewrite Ha. split.
      - intros [(w & s4 & H1 & H2)|(o2 & Hf & H1 & ->)]; destruct (guard_true_inv G c e s1 v s2 _ _ Hc Ht H1) as (o' & H3 & E).
        + destruct o' as [u| |]; try discriminate. injection E as ->. assert (Hu : u <> VNil) by (intros ->; exact (Hn _ H3)).
          assert (E2 : o1 = Ok (GVal u) /\ s3 = s4). { apply (conv_ret G (GVal u)). destruct u; try congruence; exact H2. } destruct E2 as [-> ->]. exists (Ok u). split; [exact H3|reflexivity].
        + subst o2. exists o'. split; [exact H3|]. destruct o'; destruct Hf; try discriminate; reflexivity.
      - intros (o' & H3 & ->). pose proof (guard_true G c e s1 v s2 o' s3 Hc Ht H3) as H4. destruct o' as [u| |].
        + left. exists (Some u), s3. split; [exact H4|]. assert (Hu : u <> VNil) by (intros ->; exact (Hn _ H3)). destruct u; try congruence; apply (conv_ret G); auto.
        + right. exists Err. split; [left; reflexivity|]. split; [exact H4|reflexivity].
        + right. exists Panic. split; [right; reflexivity|]. split; [exact H4|reflexivity]. }
    assert (N : forall o0 s0, conv G (fun i => guards G i (gs ++ Guard (Some c) (Some e) :: rest) empty) (enter (gs ++ Guard (Some c) (Some e) :: rest) l r s) o0 s0 -> forall tl tr, o0 <> Ok (GTail tl tr)).
    { intros o0 s0 H tl tr ->. apply Q in H as (o' & _ & E). destruct o'; discriminate. }
    split.
    - intros (s3 & H & ->). apply conv_cont in H; [|exact N]. apply Q in H as (o' & H & E). exists s3. split; [|reflexivity]. destruct o, o'; try discriminate; try exact H. injection E as ->. exact H.
    - intros (s3 & H & ->). exists s3. split; [|reflexivity]. apply conv_cont; [exact N|]. apply Q. exists o. split; [exact H|reflexivity].
  Qed.
  (* the last statement, if no condition before it was true *)
  Theorem C63_last gs e l r s ret s1 o s' : passes G gs empty (enter (gs ++ [Guard None (Some e)]) l r s) ret s1 ->
    isAssign e = false -> ~ is_self_call (Some e) -> (forall s3, ~ evaluates e s1 VNil s3) ->
    (calls (FLam (gs ++ [Guard None (Some e)])) l r s o s' <-> exists s3, ends (TEval e) s1 o s3 /\ s' = leave s3).
  Proof.
    intros Hp Ha Hs Hn. rewrite lambda_call by (destruct gs; discriminate).
    assert (Q : forall o s3, conv G (fun i => guards G i (gs ++ [Guard None (Some e)]) empty) (enter (gs ++ [Guard None (Some e)]) l r s) o s3 <->
      exists o1, ends (TEval e) s1 o1 s3 /\ o = match o1 with Ok v => Ok (GVal v) | Err => Err | Panic => Panic end).
    { intros o1 s3. rewrite (guards_pass G _ _ _ _ _ _ _ _ Hp). rewrite conv_cons by (try reflexivity; apply not_self_call, Hs). cbn [isAssignment]. rewrite Ha. split.
      - intros [(w & s4 & H1 & H2)|(o2 & Hf & H1 & ->)]; destruct (guard_none_inv G e s1 _ _ H1) as (o' & H3 & E).
        + destruct o' as [u| |]; try discriminate. injection E as ->. assert (Hu : u <> VNil) by (intros ->; exact (Hn _ H3)).
          assert (E2 : o1 = Ok (GVal u) /\ s3 = s4). { apply (conv_ret G (GVal u)). destruct u; try congruence; exact H2. } destruct E2 as [-> ->]. exists (Ok u). split; [exact H3|reflexivity].
        + subst o2. exists o'. split; [exact H3|]. destruct o'; destruct Hf; try discriminate; reflexivity.
      - intros (o' & H3 & ->). pose proof (guard_none G e s1 o' s3 H3) as H4. destruct o' as [u| |].
        + left. exists (Some u), s3. split; [exact H4|]. assert (Hu : u <> VNil) by (intros ->; exact (Hn _ H3)). destruct u; try congruence; apply (conv_ret G); auto.
        + right. exists Err. split; [left; reflexivity|]. split; [exact H4|reflexivity].
        + right. exists Panic. split; [right; reflexivity|]. split; [exact H4|reflexivity]. }
    assert (N : forall o0 s0, conv G (fun i => guards G i (gs ++ [Guard None (Some e)]) empty) (enter (gs ++ [Guard None (Some e)]) l r s) o0 s0 -> forall tl tr, o0 <> Ok (GTail tl tr)).
    { intros o0 s0 H tl tr ->. apply Q in H as (o' & _ & E). destruct o'; discriminate. }
    split.
    - intros (s3 & H & ->). apply conv_cont in H; [|exact N]. apply Q in H as (o' & H & E). exists s3. split; [|reflexivity]. destruct o, o'; try discriminate; try exact H. injection E as ->. exact H.
    - intros (s3 & H & ->). exists s3. split; [|reflexivity]. apply conv_cont; [exact N|]. apply Q. exists o. split; [exact H|reflexivity].
  Qed.
  (* no statement gives a result: the value of the last assignment, or the empty array *)
  Theorem C63_no_branch body l r s ret s1 : body <> [] -> passes G body empty (enter body l r s) ret s1 -> calls (FLam body) l r s (Ok ret) (leave s1).
  Proof.
    intros Hb Hp. apply lambda_call; [exact Hb|]. exists s1. split; [|reflexivity]. apply conv_bind; [apply guards_mono|intros; apply cont_mono|]. left. exists (GVal ret), s1. split; [|apply conv_ret; auto].
    pose proof (proj2 (guards_pass G body [] _ _ _ _ (Ok (GVal ret)) s1 Hp)) as Q. rewrite app_nil_r in Q. apply Q. apply (conv_ret G (GVal ret)). auto.
  Qed.
  (* a condition that fails, or that is no boolean *)
  Theorem C63_condition_fails gs c e rest l r s ret s1 o s2 : passes G gs empty (enter (gs ++ Guard (Some c) e :: rest) l r s) ret s1 -> ~ is_self_call e ->
    failed o -> ends (TEval c) s1 o s2 -> calls (FLam (gs ++ Guard (Some c) e :: rest)) l r s o (leave s2).
  Proof.
    intros Hp Hs Hf Hc. apply lambda_call; [destruct gs; discriminate|]. exists s2. split; [|reflexivity]. apply conv_bind; [apply guards_mono|intros; apply cont_mono|].
    right. exists (fmap_fail o). split; [destruct Hf as [->| ->]; [left|right]; reflexivity|]. split; [|destruct Hf as [->| ->]; reflexivity].
    apply (guards_pass G _ _ _ _ _ _ _ _ Hp). apply conv_cons; [reflexivity|apply not_self_call, Hs|]. right. exists (fmap_fail o). split; [destruct Hf as [->| ->]; [left|right]; reflexivity|].
    split; [apply guard_cfail; assumption|destruct Hf as [->| ->]; reflexivity].
  Qed.
  Theorem C63_not_boolean gs c e rest l r s ret s1 v s2 : passes G gs empty (enter (gs ++ Guard (Some c) e :: rest) l r s) ret s1 -> ~ is_self_call e ->
    evaluates c s1 v s2 -> truth G v = None -> calls (FLam (gs ++ Guard (Some c) e :: rest)) l r s Err (leave s2).
  Proof.
    intros Hp Hs Hc Ht. apply lambda_call; [destruct gs; discriminate|]. exists s2. split; [|reflexivity]. apply conv_bind; [apply guards_mono|intros; apply cont_mono|].
    right. exists Err. split; [left; reflexivity|]. split; [|reflexivity].
    apply (guards_pass G _ _ _ _ _ _ _ _ Hp). apply conv_cons; [reflexivity|apply not_self_call, Hs|]. right. exists Err. split; [left; reflexivity|]. split; [eapply guard_nobool; eassumption|reflexivity].
  Qed.

  (* C64: ordinary_step is the interpreter in which ∇ in tail position is evaluated like any
     other call, in a new environment.  It gives the same outcome and the same state, for
     runs that meet only orderly steps: no modified or indexed assignment, no tail call
     with a condition (C64_condition_refuted), no tail call without a left argument in a
     lambda that was called with one (C64_left_refuted). *)
  Theorem C64_tail_calls_partial t s o s' : envs s <> [] -> (forall body l r, t <> TLoop body l r) ->
    (ends_with orderly (step G) t s o s' <-> ends_with orderly (ordinary_step G) t s o s').
  Proof. apply tail_iff. Qed.
  Theorem C64_orderly_runs t s o s' : ends_with orderly (step G) t s o s' -> ends t s o s'.
  Proof. intros [n H]. exists n. apply (run_interp G orderly n), H. Qed.

  (* C65 *)
  Theorem C65_atop g h l r s o s' : calls (FTrain [EFn g; EFn h]) l r s o s' <-> then_calls G h l r s (fun v s1 => calls g None v s1) o s'.
  Proof. rewrite (train2 G _ _ l r s o s' _ _ s s (ends_fn G g s) (ends_fn G h s)). apply atop_calls. Qed.
  Theorem C65_fork f g h l r s o s' : calls (FTrain [EFn f; EFn g; EFn h]) l r s o s' <->
    then_calls G f l r s (fun lv s1 => then_calls G h l r s1 (fun rv s2 => calls g (Some lv) rv s2)) o s'.
  Proof. rewrite (train3 G _ _ _ l r s o s' _ _ _ s s s (ends_fn G f s) (ends_fn G g s) (ends_fn G h s)). apply fork_calls. Qed.
  (* the first part may be any expression whose value is not a function; it is used as the left argument *)
  Theorem C65_fork_value e g h l r s a s0 o s' : evaluates e s a s0 -> isFn a = false ->
    (calls (FTrain [e; EFn g; EFn h]) l r s o s' <-> then_calls G h l r s0 (fun rv s2 => calls g (Some a) rv s2) o s').
  Proof. intros He Ha. rewrite (train3 G _ _ _ l r s o s' _ _ _ s0 s0 s0 He (ends_fn G g s0) (ends_fn G h s0)). apply fork_value, Ha. Qed.
  (* f followed by an odd train is an atop, f g followed by an odd train is a fork *)
  Theorem C65_longer_even e t l r s o s' : (3 <= length t)%nat -> Nat.odd (length t) = true ->
    (calls (FTrain (e :: t)) l r s o s' <-> calls (FTrain [e; EFn (FTrain t)]) l r s o s').
  Proof. apply train_even. Qed.
  Theorem C65_longer_odd e0 e1 t l r s o s' : (2 <= length t)%nat -> Nat.odd (length t) = true ->
    (calls (FTrain (e0 :: e1 :: t)) l r s o s' <-> calls (FTrain [e0; e1; EFn (FTrain t)]) l r s o s').
  Proof. apply train_odd. Qed.

  (* C66: loading a file as package pkg; ps are its statements *)
  Theorem C66_variables n ps pkg s o s' : LoadPkg G n ps pkg s = Some (o, s') -> envs s' = envs s /\ (forall x, variable x -> Lookup G s' x = Lookup G s x) /\ o <> Panic.
  Proof.
    unfold LoadPkg. destruct (EvalFile G n ps _) as [[o1 s1]|] eqn:E; [|discriminate]. intros H. injection H as <- <-.
    split; [destruct o1; reflexivity|]. split; [|eapply EvalFile_no_panic, E]. intros x Hx. rewrite !lookup_env by exact Hx. destruct o1; reflexivity.
  Qed.
  Theorem C66_failure n ps pkg s s' : LoadPkg G n ps pkg s = Some (Err, s') -> pkgs s' = pkgs s.
  Proof.
    unfold LoadPkg. destruct (EvalFile G n ps _) as [[o1 s1]|] eqn:E; [|discriminate]. intros H. injection H as -> <-. apply EvalFile_pkgs in E. exact E.
  Qed.
  (* on success exactly this package is replaced, by the variables that the file has assigned *)
  Theorem C66_success n ps pkg s s' : LoadPkg G n ps pkg s = Some (Ok tt, s') -> l_islower G pkg = true ->
    exists s1, EvalFile G n ps (with_envs s [[]]) = Some (Ok tt, s1) /\
      (forall x fn, Lookup G s' (Pkg pkg x fn) = match fget (last (envs s1) []) (if fn then Fun x else Num x) with Some v => v | None => VNil end) /\
      (forall q x fn, q <> pkg -> Lookup G s' (Pkg q x fn) = Lookup G s (Pkg q x fn)).
  Proof.
    unfold LoadPkg. destruct (EvalFile G n ps _) as [[o1 s1]|] eqn:E; [|discriminate]. intros H Hl. injection H as -> <-. exists s1. split; [reflexivity|]. pose proof (EvalFile_pkgs G n ps _ _ _ E) as K. unfold keeps_pkgs in K. cbn in K.
    split; intros; unfold Lookup, LookupEnv.
    - rewrite Hl. cbn. rewrite String.eqb_refl. reflexivity.
    - cbn. rewrite K, (proj2 (String.eqb_neq pkg q)) by congruence. reflexivity.
  Qed.
End Props.

(* A small language for the examples: integers, subtraction, a function that writes its
   argument to a log, and one that fails. *)
Definition toy_handler (c : option Z -> Z -> code Z (list Z)) : handler Z (list Z) :=
  mkHandler (fun _ l r => match l, r with None, VD _ => Some (l, r) | Some (VD _), VD _ => Some (l, r) | _, _ => None end)
    (fun l r => match r with VD r => c (match l with Some (VD l) => Some l | _ => None end) r | _ => CRet Err end) (fun _ _ => CRet Err).
Definition toy_history : list (string * handler Z (list Z)) :=
  [("-"%string, toy_handler (fun l r => CRet (Ok (VD (match l with Some l => l - r | None => - r end)%Z))));
   ("!"%string, toy_handler (fun _ r => CExt (fun x => (x ++ [r], CRet (Ok (VD r))))));
   ("fail"%string, toy_handler (fun _ _ => CRet Err))].
Definition toy : lang Z (list Z) :=
  mkLang (registered toy_history) (fun _ => []) (fun _ _ _ => CRet Err) 99%Z (fun _ => false) (fun _ => 0%Z) (fun z => if (z =? 0)%Z then Some false else if (z =? 1)%Z then Some true else None)
    (fun z => z) (fun _ => None) (fun _ _ _ _ => CRet Err) (fun _ => 0%Z) (fun _ x => Ok x) (fun _ => true).
Definition toy0 : st Z (list Z) := mkSt [[]] [] 1 [] [].
Definition app1 p e : expr Z := EApp (FPrim p) None e false.
Definition app2 l p e : expr Z := EApp (FPrim p) (Some l) e false.
Definition k (z : Z) : expr Z := EConst z.

(* (! 7) - (! 5): 5 is written first *)
Example C59_example : exists s', evaluates toy (app2 (app1 "!" (k 7)) "-" (app1 "!" (k 5))) toy0 (VD 2%Z) s' /\ ext s' = [5%Z; 7%Z].
Proof. eexists. split; [exists 10%nat; reflexivity|reflexivity]. Qed.
Example C59_example_error : exists s', ends toy (TEval (app2 (app1 "!" (k 7)) "-" (app1 "fail" (k 5)))) toy0 Err s' /\ ext s' = [].
Proof. eexists. split; [exists 10%nat; reflexivity|reflexivity]. Qed.
(* a later handler for negative right arguments of - *)
Definition neg_handler : handler Z (list Z) :=
  mkHandler (fun _ l r => match r with VD r => if (r <? 0)%Z then Some (l, VD r) else None | _ => None end) (fun _ _ => CRet (Ok (VD 1000%Z))) (fun _ _ => CRet Err).
Definition toy' : lang Z (list Z) := mkLang (registered (toy_history ++ [("-"%string, neg_handler)])) (fun _ => []) (fun _ _ _ => CRet Err) 99%Z (fun _ => false) (fun _ => 0%Z) (fun z => None)
    (fun z => z) (fun _ => None) (fun _ _ _ _ => CRet Err) (fun _ => 0%Z) (fun _ x => Ok x) (fun _ => true).
Example C60_example : calls toy' (FPrim "-") None (VD 5%Z) toy0 (Ok (VD (-5)%Z)) toy0 /\ calls toy' (FPrim "-") None (VD (-5)%Z) toy0 (Ok (VD 1000%Z)) toy0.
Proof. split; exists 5%nat; reflexivity. Qed.
Example C61_example : Lookup toy (assign_all toy [(Num "A", VD 1%Z); (Num "B", VD 2%Z); (Num "A", VD 3%Z); (Num "A", VFn (FPrim "-"))] toy0) (Num "A") = VD 3%Z.
Proof. reflexivity. Qed.
(* {A←⍵-1 ⋄ A} 5 with A←7 outside *)
Definition s7 : st Z (list Z) := mkSt [[(Num "A", VD 7%Z)]] [] 1 [] [].
Definition local : list (guard Z) := [Guard None (Some (assign (Num "A") (app2 (EVar Omega) "-" (k 1)))); Guard None (Some (EVar (Num "A")))].
Example C62_example : ends_with plain (step toy) (TCall (FLam local) None (VD 5%Z)) s7 (Ok (VD 4%Z)) s7.
Proof. exists 10%nat. reflexivity. Qed.
(* {⍵:!10 ⋄ 1:20 ⋄ 1:30} 0 *)
Definition branches : list (guard Z) := [Guard (Some (EVar Omega)) (Some (app1 "!" (k 10))); Guard (Some (k 1)) (Some (k 20)); Guard (Some (app1 "fail" (k 1))) (Some (k 30))].
Example C63_example : passes toy [Guard (Some (EVar Omega)) (Some (app1 "!" (k 10)))] (VD (l_emptyD toy)) (enter branches None (VD 0%Z) toy0) (VD (l_emptyD toy)) (enter branches None (VD 0%Z) toy0) /\
  calls toy (FLam branches) None (VD 0%Z) toy0 (Ok (VD 20%Z)) toy0.
Proof.
  split; [|exists 10%nat; reflexivity]. eapply pass_false; [intros []|exists 2%nat; reflexivity|reflexivity|constructor].
Qed.
(* {A←⍵ ⋄ ⍵-0: ... } : a countdown by tail calls; {⍵-1:... } is replaced by a condition on ⍵ = 1 *)
Definition count : list (guard Z) := [Guard (Some (EVar Omega)) (Some (k 42)); Guard None (Some (EApp FSelf None (app2 (EVar Omega) "-" (k (-1))) false))].
Example C64_example : ends_with orderly (step toy) (TCall (FLam count) None (VD 0%Z)) toy0 (Ok (VD 42%Z)) toy0 /\ ends_with orderly (ordinary_step toy) (TCall (FLam count) None (VD 0%Z)) toy0 (Ok (VD 42%Z)) toy0.
Proof. split; exists 20%nat; reflexivity. Qed.

(* C64, refuted: the condition before a tail call is not looked at: {0:∇5 ⋄ ⍵} 5 does not end.
   An ordinary call would never be made. *)
Definition guarded : list (guard Z) := [Guard (Some (k 0)) (Some (EApp FSelf None (k 5) false)); Guard None (Some (EVar Omega))].
Theorem C64_condition_refuted : (forall o s', ~ calls toy (FLam guarded) None (VD 5%Z) toy0 o s') /\ ends_with (fun _ => true) (ordinary_step toy) (TCall (FLam guarded) None (VD 5%Z)) toy0 (Ok (VD 5%Z)) toy0.
Proof.
  split; [|exists 10%nat; reflexivity]. intros o s' [n H]. destruct n as [|n]; [discriminate|]. cbn [interp step] in H. unfold guarded at 1 in H. unfold in_env in H.
  destruct (interp toy n _ _) as [[o1 s1]|] eqn:E; [|discriminate]. clear H. 
  assert (L : forall n s, interp toy n (TLoop guarded None (VD 5%Z)) s = None).
  { clear. induction n as [|n IH]; intros s; [reflexivity|]. destruct n as [|n]; [reflexivity|].
    transitivity (interp toy (S n) (TLoop guarded None (VD 5%Z)) (set_top Omega (VD 5%Z) (set_top Alpha VNil s))); [reflexivity|apply IH]. }
  assert (T : interp toy n (TLoop guarded None (VD 5%Z)) (with_envs toy0 ([(Nabla, VFn (FLam guarded))] :: envs toy0)) = Some (o1, s1)) by exact E. rewrite L in T. discriminate.
Qed.
(* C64, refuted: a tail call without left argument keeps the left argument of the caller:
   7{⍵:⍺ ⋄ ∇1}0 is 7, while in an ordinary call ⍺ has no value and stays an identifier *)
Definition keeps_left : list (guard Z) := [Guard (Some (EVar Omega)) (Some (EVar Alpha)); Guard None (Some (EApp FSelf None (k 1) false))].
Theorem C64_left_refuted : calls toy (FLam keeps_left) (Some (VD 7%Z)) (VD 0%Z) toy0 (Ok (VD 7%Z)) toy0 /\
  ends_with (fun _ => true) (ordinary_step toy) (TCall (FLam keeps_left) (Some (VD 7%Z)) (VD 0%Z)) toy0 (Ok (VId Alpha)) toy0.
Proof. split; exists 20%nat; reflexivity. Qed.

(* (- ! -) 3 : a fork that runs - , - and then ! with a left argument; and (- - - !) as an atop of - and a fork *)
Example C65_example : calls toy (FTrain [EFn (FPrim "-"); EFn (FPrim "-"); EFn (FPrim "!")]) (Some (VD 10%Z)) (VD 4%Z) toy0 (Ok (VD 2%Z)) (mkSt [[]] [] 1 [] [4%Z]) /\
  calls toy (FTrain [EFn (FPrim "-"); EFn (FPrim "-"); EFn (FPrim "-"); EFn (FPrim "!")]) (Some (VD 10%Z)) (VD 4%Z) toy0 (Ok (VD (-2)%Z)) (mkSt [[]] [] 1 [] [4%Z]).
Proof. split; exists 20%nat; reflexivity. Qed.
(* a package with one variable; the second statement of a failing package *)
Example C66_example : (exists s', LoadPkg toy 20 [Ok [assign (Num "A") (k 1)]] "p" s7 = Some (Ok tt, s') /\ Lookup toy s' (Pkg "p" "A" false) = VD 1%Z /\ Lookup toy s' (Num "A") = VD 7%Z) /\
  (exists s', LoadPkg toy 20 [Ok [assign (Num "A") (k 1)]; Ok [app1 "fail" (k 1)]] "p" s7 = Some (Err, s') /\ s' = s7).
Proof. split; eexists; split; reflexivity || (split; reflexivity). Qed.

Print Assumptions C59_right_to_left. Print Assumptions C59_monadic. Print Assumptions C59_deterministic. Print Assumptions C60_latest_handler. Print Assumptions C60_no_handler.
Print Assumptions C61_latest. Print Assumptions C61_unknown. Print Assumptions C61_expression. Print Assumptions C62_environment_restored. Print Assumptions C62_no_new_variables. Print Assumptions C62_caller_unchanged. Print Assumptions C62_env_call.
Print Assumptions C63_first_true. Print Assumptions C63_last. Print Assumptions C63_no_branch. Print Assumptions C63_condition_fails. Print Assumptions C63_not_boolean.
Print Assumptions C64_tail_calls_partial. Print Assumptions C64_orderly_runs. Print Assumptions C64_condition_refuted. Print Assumptions C64_left_refuted.
Print Assumptions C65_atop. Print Assumptions C65_fork. Print Assumptions C65_fork_value. Print Assumptions C65_longer_even. Print Assumptions C65_longer_odd.
Print Assumptions C66_variables. Print Assumptions C66_failure. Print Assumptions C66_success.
