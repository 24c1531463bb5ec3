(* P_Eval.v -- proofs about the interpreter. *)
From Verif Require Import Base M_Syntax M_Eval S_Eval.
From Coq Require Import String List Lia.
Import ListNotations.
Open Scope list_scope.

Lemma name_eqb_eq a b : name_eqb a b = true <-> a = b.
Proof.
  destruct a, b; cbn; split; intros H; try discriminate; try reflexivity; try (apply String.eqb_eq in H; congruence); try (injection H as ->; apply String.eqb_refl).
  - apply andb_true_iff in H as [H H3]. apply andb_true_iff in H as [H1 H2]. apply String.eqb_eq in H1, H2. apply Bool.eqb_prop in H3. congruence.
  - injection H as -> -> ->. rewrite !String.eqb_refl, Bool.eqb_reflx. reflexivity.
Qed.
Lemma name_eqb_refl a : name_eqb a a = true. Proof. apply name_eqb_eq. reflexivity. Qed.
Lemma name_eqb_neq a b : a <> b -> name_eqb a b = false.
Proof. intros H. destruct (name_eqb a b) eqn:E; [apply name_eqb_eq in E; contradiction|reflexivity]. Qed.

Section Fr.
  Context {D : Type}.
  Implicit Types f : frame D.
  Lemma fget_fset f x v y : fget (fset f x v) y = if name_eqb x y then Some v else fget f y.
  Proof.
    induction f as [|[z w] f IH]; cbn; [reflexivity|]. destruct (name_eqb z x) eqn:E; cbn.
    - apply name_eqb_eq in E. subst z. destruct (name_eqb x y); reflexivity.
    - rewrite IH. destruct (name_eqb z y) eqn:E2; [|reflexivity]. apply name_eqb_eq in E2. subst z.
      destruct (name_eqb x y) eqn:E3; [|reflexivity]. apply name_eqb_eq in E3. subst x. rewrite name_eqb_refl in E. discriminate.
  Qed.
End Fr.

Section Mono.
  Context {D X : Type}.
  Local Notation M := (M D X).
  Definition le {A} (m1 m2 : M A) : Prop := forall s r, m1 s = Some r -> m2 s = Some r.
  Lemma le_refl {A} (m : M A) : le m m. Proof. intros s r H. exact H. Qed.
  Lemma le_trans {A} (a b c : M A) : le a b -> le b c -> le a c. Proof. intros H1 H2 s r H. auto. Qed.
  Lemma le_bind {A B} (m m' : M A) (k k' : A -> M B) : le m m' -> (forall a, le (k a) (k' a)) -> le (mbind m k) (mbind m' k').
  Proof.
    intros Hm Hk s r H. unfold mbind in *. destruct (m s) as [[o s']|] eqn:E; [|discriminate]. rewrite (Hm _ _ E). destruct o; [apply Hk, H|exact H|exact H].
  Qed.
  Lemma le_try {A B} (m m' : M A) (k k' : outcome A -> M B) : le m m' -> (forall a, le (k a) (k' a)) -> le (mtry m k) (mtry m' k').
  Proof.
    intros Hm Hk s r H. unfold mtry in *. destruct (m s) as [[o s']|] eqn:E; [|discriminate]. rewrite (Hm _ _ E). destruct o; [apply Hk, H|apply Hk, H|exact H].
  Qed.
  Lemma le_mmap {A B} (f g : A -> M B) l : (forall a, le (f a) (g a)) -> le (mmap f l) (mmap g l).
  Proof. intros H. induction l as [|x l IH]; cbn; [apply le_refl|]. apply le_bind; [apply H|]. intros y. apply le_bind; [exact IH|]. intros. apply le_refl. Qed.
  Lemma le_fun {A} (m m' : M A) : (forall s, match m s with Some r => m' s = Some r | None => True end) -> le m m'.
  Proof. intros H s r E. specialize (H s). rewrite E in H. exact H. Qed.
  Lemma le_st {A} (m m' : st D X -> M A) : (forall s, le (m s) (m' s)) -> le (fun s => m s s) (fun s => m' s s).
  Proof. intros H s r E. apply (H s), E. Qed.
  Lemma le_in_env vars (m m' : M (value D)) : le m m' -> le (in_env vars m) (in_env vars m').
  Proof. intros H s r E. unfold in_env in *. destruct (m _) as [[o s']|] eqn:E1; [|discriminate]. rewrite (H _ _ E1). exact E. Qed.
End Mono.

Ltac mono := repeat first
  [ apply le_refl
  | apply le_bind; [|intros ?]
  | apply le_try; [|intros ?]
  | apply le_mmap; intros ?
  | apply le_in_env
  | match goal with H : forall t, le (?a t) (?b t) |- le (?a _) (?b _) => apply H end
  | match goal with |- le (match ?x with _ => _ end) _ => destruct x end
  | match goal with |- le (if ?x then _ else _) _ => destruct x end ].

Section Interp.
  Context {D X : Type}.
  Context (G : lang D X).
  Local Notation step := (step G).
  Local Notation interp := (interp G).
  Local Notation M := (M D X).
  Local Notation task := (task D X).
  Implicit Types self : task -> M (value D).

  Lemma le_handlers self self' hs pick l r : (forall t, le (self t) (self' t)) -> le (try_handlers self hs pick l r) (try_handlers self' hs pick l r).
  Proof.
    intros H. induction hs as [|h hs IH]; [apply le_refl|]. intros s q E. cbn in *. destruct (hto h (ext s) l r) as [[l' r']|]; [apply H, E|apply IH, E].
  Qed.
  Lemma le_operators self self' os lo ro k : (forall t, le (self t) (self' t)) -> le (try_operators self os lo ro k) (try_operators self' os lo ro k).
  Proof.
    intros H. induction os as [|o os IH]; [apply le_refl|]. intros s q E. cbn in *. destruct (oto o (ext s) lo ro) as [[l' r']|]; [apply H, E|apply IH, E].
  Qed.
  Lemma le_assignScalar self self' x idx f R : (forall t, le (self t) (self' t)) ->
    le (assignScalar G self x idx f R) (assignScalar G self' x idx f R).
  Proof.
    intros H. unfold assignScalar. destruct f as [f|], idx as [i|]; [| | |apply le_refl].
    all: intros s q E; destruct (LookupEnv G s x) as [w env]; destruct w; try exact E; revert q E.
    all: match goal with |- forall q, mbind ?a ?b ?s = _ -> mbind ?a' ?b' ?s = _ => intros q E; refine (le_bind a a' b b' _ _ s q E) end; [apply H|intros; apply le_refl].
  Qed.
  Lemma le_assign_each self self' xs vs f : (forall t, le (self t) (self' t)) ->
    le (assign_each G self xs vs f) (assign_each G self' xs vs f).
  Proof.
    intros H. revert vs. induction xs as [|x xs IH]; intros [|v vs]; cbn; try apply le_refl. apply le_bind; [apply le_assignScalar, H|intros; apply IH].
  Qed.
  Lemma le_evalAssign self self' e : (forall t, le (self t) (self' t)) -> le (evalAssign self e) (evalAssign self' e).
  Proof. intros H. unfold evalAssign, eval. destruct e as [e|]; [|apply le_refl]. destruct e; mono. Qed.
  Lemma le_assign_call self self' lo l R : (forall t, le (self t) (self' t)) ->
    le (assign_call G self lo l R) (assign_call G self' lo l R).
  Proof.
    intros H. unfold assign_call. apply le_bind.
    - destruct l as [v|]; [destruct v; try apply le_refl|]; [destruct lo as [e'|]; [destruct e'; try apply le_refl|]|]; (apply le_bind; [apply le_evalAssign, H|intros; apply le_refl]).
    - intros [t f]. destruct t as [x idx|xs].
      + apply le_bind; [apply le_assignScalar, H|intros; apply le_refl].
      + unfold assignVector. destruct (match l_asVec G R with Some a => a | None => _ end) as [sh vs]. destruct sh as [|n [|? ?]]; try apply le_refl.
        destruct (_ && _); [apply le_refl|]. destruct (Z.eqb n 1).
        * destruct vs; [apply le_refl|]. apply le_bind; [apply le_assign_each, H|intros; apply le_refl].
        * apply le_bind; [apply le_assign_each, H|intros; apply le_refl].
  Qed.
  Lemma le_evalOpt self self' e : (forall t, le (self t) (self' t)) -> le (evalOpt self e) (evalOpt self' e).
  Proof. intros H. unfold evalOpt, eval. destruct e; mono. Qed.
  Lemma le_derived_call self self' op lo ro l r : (forall t, le (self t) (self' t)) ->
    le (derived_call G self op lo ro l r) (derived_call G self' op lo ro l r).
  Proof.
    intros H. unfold derived_call. destruct (String.eqb op assign_op); [apply le_assign_call, H|]. destruct (l_operators G op) as [|o os]; [apply le_refl|].
    apply le_bind; [destruct (odyadic o); [apply le_bind; [apply le_evalOpt, H|intros; apply le_refl]|apply le_refl]|]. intros rv. apply le_bind; [apply le_evalOpt, H|]. intros lv. apply le_operators, H.
  Qed.
  Lemma le_derived_select self self' op lo ro l r : (forall t, le (self t) (self' t)) ->
    le (derived_select G self op lo ro l r) (derived_select G self' op lo ro l r).
  Proof.
    intros H. unfold derived_select. destruct (l_operators G op) as [|o os]; [apply le_refl|]. destruct (_ && _); [apply le_refl|].
    apply le_bind; [apply le_evalOpt, H|]. intros lv. apply le_bind; [destruct (odyadic o); [apply le_bind; [apply le_evalOpt, H|intros; apply le_refl]|apply le_refl]|]. intros rv. apply le_operators, H.
  Qed.
  Lemma le_train self self' t l r : (forall t, le (self t) (self' t)) -> le (train self t l r) (train self' t l r).
  Proof.
    intros H.
    assert (A : forall a b, le (atop self a b l r) (atop self' a b l r)). { intros a b. unfold atop, asFunc, call. mono. }
    assert (F : forall a b c, le (fork self a b c l r) (fork self' a b c l r)). { intros a b c. unfold fork, asFunc, call. mono. }
    unfold train, eval. destruct t as [|e0 [|e1 [|e2 [|e3 t]]]]; try apply le_refl; repeat (apply le_bind; [apply H|intros ?]); auto.
    destruct (Nat.even _); repeat (apply le_bind; [apply H|intros ?]); auto.
  Qed.
  Lemma le_guard_eval self self' c e : (forall t, le (self t) (self' t)) -> le (guard_eval G self c e) (guard_eval G self' c e).
  Proof. intros H. unfold guard_eval, evalOpt, eval. destruct c, e; mono. Qed.
  Lemma le_guards self self' gs ret : (forall t, le (self t) (self' t)) -> le (guards G self gs ret) (guards G self' gs ret).
  Proof.
    intros H. revert ret. induction gs as [|[c e] gs IH]; intros ret; [apply le_refl|]. cbn [guards]. destruct (_ && _); [apply le_refl|].
    destruct (self_call e) as [[? ?]|]; [apply le_refl|]. apply le_bind; [apply le_guard_eval, H|]. intros v. destruct v as [v|]; [|apply IH]. destruct v; try apply IH; destruct (isAssignment e); try apply IH; apply le_refl.
  Qed.
  Lemma step_mono self self' t : (forall t, le (self t) (self' t)) -> le (step self t) (step self' t).
  Proof.
    intros H. destruct t as [e|f l r|c|body l r].
    - destruct e as [d|l|x|f|f l r sel|l|l]; cbn [M_Eval.step]; try apply le_refl.
      + destruct l as [|e1 [|e2 l]]; [apply le_refl|apply H|]. unfold eval. apply le_bind; [apply le_mmap; intros; apply le_bind; [apply H|intros; apply le_refl]|intros; apply le_refl].
      + unfold eval, call. apply le_bind; [apply H|]. intros rv. apply le_bind; [mono|]. intros lv.
        destruct (_ && _); [|apply H]. destruct f; try apply le_refl; [apply le_handlers, H|apply le_derived_select, H].
      + unfold eval. apply le_bind; [apply le_mmap; intros [?|]; [apply H|apply le_refl]|intros; apply le_refl].
      + unfold eval. apply le_bind; [apply le_mmap; intros; apply H|intros; apply le_refl].
    - destruct f as [p|x|body| |ts|op lo ro|p]; cbn [M_Eval.step].
      + apply le_handlers, H.
      + intros s q E. destruct (Lookup G s x); try exact E. apply H, E.
      + destruct body; [apply le_refl|]. apply le_in_env, H.
      + intros s q E. destruct (envs s) as [|e [|e' es]]; try exact E. destruct (fget e Nabla) as [v|]; [|exact E]. destruct v; try exact E. destruct f; try exact E. apply H, E.
      + apply le_train, H.
      + apply le_derived_call, H.
      + apply H.
    - destruct c as [o|f l r k|f l r vars k|x k|h]; cbn [M_Eval.step].
      + apply le_refl.
      + apply le_try; [apply H|intros; apply H].
      + apply le_try; [apply le_in_env, H|intros; apply H].
      + intros s q E. apply H, E.
      + intros s q E. destruct (h (ext s)) as [x c]. apply H, E.
    - cbn [M_Eval.step]. intros s q E. revert q E. match goal with |- forall q, ?a ?s = _ -> ?b ?s = _ => change (forall q, a s = Some q -> b s = Some q); intros q E; refine ((_ : le a b) s q E) end.
      apply le_bind; [apply le_guards, H|]. intros v. destruct v; [apply le_refl|]. unfold eval. apply le_bind; [apply H|]. intros r'. apply le_bind; [mono|intros l'; apply H].
  Qed.
  Lemma interp_S n t : le (interp n t) (interp (S n) t).
  Proof. revert t. induction n as [|n IH]; intros t; [intros s r H; discriminate|]. cbn [M_Eval.interp]. apply step_mono. exact IH. Qed.
  Lemma interp_mono n m t : (n <= m)%nat -> le (interp n t) (interp m t).
  Proof. induction 1; [apply le_refl|]. eapply le_trans; [exact IHle|apply interp_S]. Qed.
End Interp.

Section Ends.
  Context {D X : Type} (G : lang D X).
  Local Notation value := (value D). Local Notation st := (st D X). Local Notation M := (M D X). Local Notation task := (task D X).
  Local Notation interp := (interp G).
  Local Notation ends := (ends G).

  Lemma ends_det t s o1 s1 o2 s2 : ends t s o1 s1 -> ends t s o2 s2 -> o1 = o2 /\ s1 = s2.
  Proof.
    intros [n H1] [m H2]. apply (interp_mono G n (n + m)) in H1; [|lia]. apply (interp_mono G m (n + m)) in H2; [|lia]. rewrite H1 in H2. injection H2 as -> ->. split; reflexivity.
  Qed.

  (* computations that use the interpreter *)
  Definition mono {A} (F : (task -> M value) -> M A) : Prop := forall a b, (forall t, le (a t) (b t)) -> le (F a) (F b).
  Definition conv {A} (F : (task -> M value) -> M A) (s : st) (o : outcome A) (s' : st) : Prop := exists n, F (interp n) s = Some (o, s').
  Lemma conv_more {A} (F : (task -> M value) -> M A) n m s r : mono F -> (n <= m)%nat -> F (interp n) s = Some r -> F (interp m) s = Some r.
  Proof. intros HF Hn. apply HF. intros t. apply interp_mono, Hn. Qed.
  Lemma conv_self t s o s' : conv (fun i => i t) s o s' <-> ends t s o s'.
  Proof. reflexivity. Qed.
  Lemma conv_ret {A} (a : A) s o s' : conv (fun _ => mret a) s o s' <-> o = Ok a /\ s' = s.
  Proof. split; [intros [n H]; injection H as <- <-; auto|]. intros [-> ->]. exists 0%nat. reflexivity. Qed.
  Lemma conv_fail {A} s (o : outcome A) s' : conv (fun _ => mfail) s o s' <-> o = Err /\ s' = s.
  Proof. split; [intros [n H]; injection H as <- <-; auto|]. intros [-> ->]. exists 0%nat. reflexivity. Qed.
  Lemma conv_panic {A} s (o : outcome A) s' : conv (fun _ => mpanic) s o s' <-> o = Panic /\ s' = s.
  Proof. split; [intros [n H]; injection H as <- <-; auto|]. intros [-> ->]. exists 0%nat. reflexivity. Qed.
  Definition fmap_fail {A B} (o : outcome A) : outcome B := match o with Panic => Panic | _ => Err end.
  Lemma conv_bind {A B} (F : (task -> M value) -> M A) (K : (task -> M value) -> A -> M B) s o s' : mono F -> (forall a, mono (fun i => K i a)) ->
    (conv (fun i => mbind (F i) (K i)) s o s' <->
     (exists a s1, conv F s (Ok a) s1 /\ conv (fun i => K i a) s1 o s') \/ (exists o1, failed o1 /\ conv F s o1 s' /\ o = fmap_fail o1)).
  Proof.
    intros HF HK. split.
    - intros [n H]. unfold mbind in H. destruct (F (interp n) s) as [[o1 s1]|] eqn:E; [|discriminate]. destruct o1 as [a| |].
      + left. exists a, s1. split; exists n; assumption.
      + right. injection H as <- <-. exists Err. split; [left; reflexivity|]. split; [exists n; exact E|reflexivity].
      + right. injection H as <- <-. exists Panic. split; [right; reflexivity|]. split; [exists n; exact E|reflexivity].
    - intros [(a & s1 & [n H1] & [m H2])|(o1 & Ho & [n H1] & ->)].
      + exists (n + m)%nat. unfold mbind. rewrite (conv_more F n (n + m) s _ HF ltac:(lia) H1). apply (conv_more (fun i => K i a) m (n + m) s1 _ (HK a) ltac:(lia) H2).
      + exists n. unfold mbind. rewrite H1. destruct Ho as [->| ->]; reflexivity.
  Qed.
  Lemma conv_step t s o s' : ends t s o s' <-> conv (fun i => step G i t) s o s'.
  Proof. split; intros [n H]; [destruct n; [discriminate|]; exists n; exact H|exists (S n); exact H]. Qed.
  Lemma mono_self t : mono (fun i => i t). Proof. intros a b H. apply H. Qed.
  Lemma mono_const {A} (m : M A) : mono (fun _ => m). Proof. intros a b H. apply le_refl. Qed.
  Lemma mono_bind {A B} (F : (task -> M value) -> M A) (K : (task -> M value) -> A -> M B) : mono F -> (forall a, mono (fun i => K i a)) -> mono (fun i => mbind (F i) (K i)).
  Proof. intros HF HK a b H. apply le_bind; [apply HF, H|]. intros x. apply (HK x), H. Qed.
End Ends.
