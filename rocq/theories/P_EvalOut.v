(* P_EvalOut.v -- evaluation does not read the output. *)
From Verif Require Import Base M_Syntax M_Eval S_Eval P_Eval.
From Coq Require Import String List Lia.
Import ListNotations.
Open Scope list_scope.

Section Out.
  Context {D X : Type}.
  Local Notation value := (value D). Local Notation st := (st D X). Local Notation M := (M D X).
  Local Notation expr := (expr D). Local Notation func := (func D).
  (* the state s after o had been printed before *)
  Definition after (o : list value) (s : st) : st := mkSt (envs s) (pkgs s) (origin s) (o ++ out s) (ext s).
  Definition blind {A} (m : M A) : Prop := forall s o, m (after o s) = match m s with Some (r, s') => Some (r, after o s') | None => None end.
  Lemma bl_ret {A} (a : A) : blind (mret a). Proof. intros s o. reflexivity. Qed.
  Lemma bl_fail {A} : blind (@mfail D X A). Proof. intros s o. reflexivity. Qed.
  Lemma bl_panic {A} : blind (@mpanic D X A). Proof. intros s o. reflexivity. Qed.
  Lemma bl_none {A} : blind (fun _ => @None (outcome A * st)). Proof. intros s o. reflexivity. Qed.
  Lemma bl_bind {A B} (m : M A) (k : A -> M B) : blind m -> (forall a, blind (k a)) -> blind (mbind m k).
  Proof. intros Hm Hk s o. unfold mbind. rewrite Hm. destruct (m s) as [[[a| |] s']|]; [apply Hk|reflexivity|reflexivity|reflexivity]. Qed.
  Lemma bl_try {A B} (m : M A) (k : outcome A -> M B) : blind m -> (forall a, blind (k a)) -> blind (mtry m k).
  Proof. intros Hm Hk s o. unfold mtry. rewrite Hm. destruct (m s) as [[[a| |] s']|]; [apply Hk|apply Hk|reflexivity|reflexivity]. Qed.
  Lemma bl_mmap {A B} (f : A -> M B) l : (forall a, blind (f a)) -> blind (mmap f l).
  Proof. intros H. induction l as [|x l IH]; cbn [mmap]; [apply bl_ret|]. apply bl_bind; [apply H|]. intros y. apply bl_bind; [exact IH|]. intros. apply bl_ret. Qed.
  Lemma bl_in_env vars (m : M value) : blind m -> blind (in_env vars m).
  Proof.
    intros H s o. unfold in_env. change (with_envs (after o s) (vars :: envs (after o s))) with (after o (with_envs s (vars :: envs s))). rewrite H.
    destruct (m _) as [[r s']|]; reflexivity.
  Qed.
  Context (G : lang D X).
  Local Notation task := (task D X).
  Implicit Types self : task -> M value.
  Lemma look_after o s x : LookupEnv G (after o s) x = LookupEnv G s x. Proof. destruct x; reflexivity. Qed.
  Lemma Look_after o s x : Lookup G (after o s) x = Lookup G s x. Proof. unfold Lookup. rewrite look_after. reflexivity. Qed.
  Lemma bl_massign x v env : blind (massign G x v env).
  Proof.
    intros s o. unfold massign, AssignEnv. destruct (isVarname x) as [ok isf]. destruct (negb ok); [reflexivity|].
    assert (E : forall o' s', (let '(a, b) := (o', s') in @Some (outcome unit * st) (a, b)) = Some (o', s')) by reflexivity.
    destruct x; try reflexivity.
    all: try (destruct v; try reflexivity; destruct (l_toBool G d); reflexivity).
    all: try (cbn [after ext]; destruct (l_setpp G v (ext s)); reflexivity).
    all: try (unfold after; cbn [envs pkgs origin out ext]; rewrite <- app_assoc; reflexivity).
    all: destruct (isFn v && negb isf); [reflexivity|]; destruct (negb (isFn v) && isf); [reflexivity|]; try reflexivity.
    all: cbv zeta; change (envs (after o s)) with (envs s); match goal with |- context [if ?b then _ else _] => destruct b end; reflexivity.
  Qed.
End Out.
Ltac bl := repeat first
  [ apply bl_ret | apply bl_fail | apply bl_panic
  | apply bl_bind; [|intros ?]
  | apply bl_try; [|intros ?]
  | apply bl_mmap; intros ?
  | apply bl_in_env
  | match goal with H : forall t, blind (?a t) |- blind (?a _) => apply H end
  | match goal with |- blind (match ?x with _ => _ end) => destruct x end
  | match goal with |- blind (if ?x then _ else _) => destruct x end ].
Section Out2.
  Context {D X : Type} (G : lang D X).
  Local Notation value := (value D). Local Notation st := (st D X). Local Notation M := (M D X).
  Local Notation task := (task D X).
  Implicit Types self : task -> M value.
  Lemma bl_handlers self hs pick l r : (forall t, blind (self t)) -> blind (try_handlers self hs pick l r).
  Proof. intros H. induction hs as [|h hs IH]; [apply bl_fail|]. intros s o. cbn [try_handlers]. cbn [after ext]. destruct (hto h (ext s) l r) as [[l' r']|]; [apply H|apply IH]. Qed.
  Lemma bl_operators self os lo ro k : (forall t, blind (self t)) -> blind (try_operators self os lo ro k).
  Proof. intros H. induction os as [|h hs IH]; [apply bl_fail|]. intros s o. cbn [try_operators]. cbn [after ext]. destruct (oto h (ext s) lo ro) as [[l' r']|]; [apply H|apply IH]. Qed.
  Lemma bl_assignScalar self x idx f R : (forall t, blind (self t)) -> blind (assignScalar G self x idx f R).
  Proof.
    intros H. unfold assignScalar. destruct f as [f|], idx as [i|]; [| | |apply bl_massign].
    all: intros s o; rewrite look_after; destruct (LookupEnv G s x) as [w env]; destruct w; try reflexivity.
    all: match goal with |- mbind ?a ?b (after ?o ?s) = _ => refine (bl_bind a b _ _ s o) end; [apply H|intros v; destruct v; try apply bl_ret; apply bl_massign].
  Qed.
  Lemma bl_assign_each self xs vs f : (forall t, blind (self t)) -> blind (assign_each G self xs vs f).
  Proof. intros H. revert vs. induction xs as [|x xs IH]; intros [|v vs]; cbn; try apply bl_ret; try apply bl_fail. apply bl_bind; [apply bl_assignScalar, H|intros; apply IH]. Qed.
  Lemma bl_evalAssign self e : (forall t, blind (self t)) -> blind (evalAssign self e).
  Proof. intros H. unfold evalAssign, eval. destruct e as [e|]; [|apply bl_fail]. destruct e; bl. Qed.
  Lemma bl_assign_call self lo l R : (forall t, blind (self t)) -> blind (assign_call G self lo l R).
  Proof.
    intros H. unfold assign_call. apply bl_bind.
    - destruct l as [v|]; [destruct v; try apply bl_fail|]; [destruct lo as [e'|]; [destruct e'; try apply bl_fail|]|]; (apply bl_bind; [apply bl_evalAssign, H|intros; apply bl_ret]).
    - intros [t f]. destruct t as [x idx|xs].
      + apply bl_bind; [apply bl_assignScalar, H|intros; apply bl_ret].
      + unfold assignVector. destruct (match l_asVec G R with Some a => a | None => _ end) as [sh vs]. destruct sh as [|n [|? ?]]; try apply bl_fail.
        destruct (_ && _); [apply bl_fail|]. destruct (Z.eqb n 1).
        * destruct vs; [apply bl_fail|]. apply bl_bind; [apply bl_assign_each, H|intros; apply bl_ret].
        * apply bl_bind; [apply bl_assign_each, H|intros; apply bl_ret].
  Qed.
  Lemma bl_evalOpt self e : (forall t, blind (self t)) -> blind (evalOpt self e).
  Proof. intros H. unfold evalOpt, eval. destruct e; bl. Qed.
  Lemma bl_derived_call self op lo ro l r : (forall t, blind (self t)) -> blind (derived_call G self op lo ro l r).
  Proof.
    intros H. unfold derived_call. destruct (String.eqb op assign_op); [apply bl_assign_call, H|]. destruct (l_operators G op) as [|o os]; [apply bl_fail|].
    apply bl_bind; [destruct (odyadic o); [apply bl_bind; [apply bl_evalOpt, H|intros; apply bl_ret]|apply bl_ret]|]. intros rv. apply bl_bind; [apply bl_evalOpt, H|]. intros lv. apply bl_operators, H.
  Qed.
  Lemma bl_derived_select self op lo ro l r : (forall t, blind (self t)) -> blind (derived_select G self op lo ro l r).
  Proof.
    intros H. unfold derived_select. destruct (l_operators G op) as [|o os]; [apply bl_fail|]. destruct (_ && _); [apply bl_fail|].
    apply bl_bind; [apply bl_evalOpt, H|]. intros lv. apply bl_bind; [destruct (odyadic o); [apply bl_bind; [apply bl_evalOpt, H|intros; apply bl_ret]|apply bl_ret]|]. intros rv. apply bl_operators, H.
  Qed.
  Lemma bl_train self t l r : (forall t, blind (self t)) -> blind (train self t l r).
  Proof.
    intros H.
    assert (A : forall a b, blind (atop self a b l r)). { intros a b. unfold atop, asFunc, call. bl. }
    assert (F : forall a b c, blind (fork self a b c l r)). { intros a b c. unfold fork, asFunc, call. bl. }
    unfold train, eval. destruct t as [|e0 [|e1 [|e2 [|e3 t]]]]; try apply bl_fail; repeat (apply bl_bind; [apply H|intros ?]); auto.
    destruct (Nat.even _); repeat (apply bl_bind; [apply H|intros ?]); auto.
  Qed.
  Lemma bl_guard_eval self c e : (forall t, blind (self t)) -> blind (guard_eval G self c e).
  Proof. intros H. unfold guard_eval, evalOpt, eval. destruct c, e; bl. Qed.
  Lemma bl_guards self gs ret : (forall t, blind (self t)) -> blind (guards G self gs ret).
  Proof.
    intros H. revert ret. induction gs as [|[c e] gs IH]; intros ret; [apply bl_ret|]. cbn [guards]. destruct (_ && _); [apply bl_fail|].
    destruct (self_call e) as [[? ?]|]; [apply bl_ret|]. apply bl_bind; [apply bl_guard_eval, H|]. intros v. destruct v as [v|]; [|apply IH]. destruct v; try apply IH; destruct (isAssignment e); try apply IH; apply bl_ret.
  Qed.
  Lemma bl_step self t : (forall t, blind (self t)) -> blind (step G self t).
  Proof.
    intros H. destruct t as [e|f l r|c|body l r].
    - destruct e as [d|l|x|f|f l r sel|l|l]; cbn [M_Eval.step]; try apply bl_ret.
      + destruct l as [|e1 [|e2 l]]; [apply bl_ret|apply H|]. unfold eval. apply bl_bind; [apply bl_mmap; intros; apply bl_bind; [apply H|intros; destruct (isScalar _ _); [apply bl_ret|apply bl_fail]]|intros; apply bl_ret].
      + intros s o. rewrite Look_after. destruct (Lookup G s x); reflexivity.
      + unfold eval, call. apply bl_bind; [apply H|]. intros rv. apply bl_bind; [bl|]. intros lv.
        destruct (sel && _); [|apply H]. destruct f; try apply bl_fail; [apply bl_handlers, H|apply bl_derived_select, H].
      + apply bl_bind; [apply bl_mmap; intros a; destruct a; [apply H|apply bl_ret]|intros; apply bl_ret].
      + apply bl_bind; [apply bl_mmap; intros a; apply H|intros; apply bl_ret].
    - destruct f as [p|x|body| |t|op lo ro|p]; cbn [M_Eval.step].
      all: idtac.
      all: try (apply bl_handlers, H). all: try (apply bl_train, H). all: try (apply bl_derived_call, H). all: try (apply H).
      + intros s o. rewrite Look_after. destruct (Lookup G s x); try reflexivity. apply H.
      + destruct body; [apply bl_ret|apply bl_in_env, H].
      + intros s o. cbn [after envs]. destruct (envs s) as [|e [|e2 es]]; try reflexivity. destruct (fget e Nabla) as [[| |[]| | | |]|]; try reflexivity; apply H.
    - destruct c as [o|f l r k|f l r vars k|x k|h]; cbn [M_Eval.step].
      + intros s o'. reflexivity.
      + apply bl_try; [apply H|intros; apply H].
      + apply bl_try; [apply bl_in_env, H|intros; apply H].
      + intros s o. rewrite Look_after. apply H.
      + intros s o. cbn [after ext]. destruct (h (ext s)) as [x c]. change (with_ext (after o s) x) with (after o (with_ext s x)). apply H.
    - cbn [M_Eval.step]. intros s o. change (set_top Omega r (set_top Alpha (optv l) (after o s))) with (after o (set_top Omega r (set_top Alpha (optv l) s))).
      match goal with |- ?m (after _ ?s) = _ => enough (B : blind m) by apply B end. apply bl_bind; [apply bl_guards, H|]. intros v. unfold eval. bl.
  Qed.
  Lemma bl_interp n t : blind (interp G n t).
  Proof. revert t. induction n as [|n IH]; intros t; [apply bl_none|]. apply bl_step, IH. Qed.
End Out2.
