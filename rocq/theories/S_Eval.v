(* S_Eval.v -- vocabulary for the properties of the interpreter. *)
From Verif Require Import Base M_Syntax M_Eval.
From Coq Require Import String List.
Import ListNotations.
Open Scope list_scope.

Section S.
  Context {D X : Type} (G : lang D X).
  Local Notation value := (value D). Local Notation st := (st D X).

  (* the task ends with outcome o (a value, an error or a panic) in state s', from state s *)
  Definition ends (t : task D X) (s : st) (o : outcome value) (s' : st) : Prop := exists n, interp G n t s = Some (o, s').
  Definition failed {A} (o : outcome A) : Prop := o = Err \/ o = Panic.
  (* the expression e has the value v *)
  Definition evaluates (e : expr D) (s : st) (v : value) (s' : st) : Prop := ends (TEval e) s (Ok v) s'.
  (* calling f, with or without a left argument *)
  Definition calls (f : func D) (l : option value) (r : value) (s : st) (o : outcome value) (s' : st) : Prop := ends (TCall f l r) s o s'.

  (* the environment in which the body of a lambda starts, and the state after the call *)
  Definition enter (body : list (guard D)) (l : option value) (r : value) (s : st) : st :=
    with_envs s ([(Nabla, VFn (FLam body)); (Alpha, match l with Some v => v | None => VNil end); (Omega, r)] :: envs s).
  Definition leave (s : st) : st := with_envs s (tl (envs s)).

  (* the truth value of a condition *)
  Definition truth (v : value) : option bool := match v with VD d => l_toBool G d | _ => None end.
  Definition is_self_call (e : option (expr D)) : Prop := match e with Some (EApp FSelf _ _ _) => True | _ => False end.
  (* The statements gs of a body are executed without reaching a result: each one is
     a condition that is false, or an assignment, with or without a condition that is
     true.  ret is the value of the last assignment. *)
  Inductive passes : list (guard D) -> value -> st -> value -> st -> Prop :=
  | pass_nil ret s : passes [] ret s ret s
  | pass_false c e gs ret s v s1 ret' s2 : ~ is_self_call e -> evaluates c s v s1 -> truth v = Some false -> passes gs ret s1 ret' s2 ->
      passes (Guard (Some c) e :: gs) ret s ret' s2
  | pass_assign e gs ret s v s1 ret' s2 : isAssign e = true -> evaluates e s v s1 -> v <> VNil -> passes gs v s1 ret' s2 ->
      passes (Guard None (Some e) :: gs) ret s ret' s2
  | pass_true_assign c e gs ret s v s1 w s2 ret' s3 : isAssign e = true -> evaluates c s v s1 -> truth v = Some true -> evaluates e s1 w s2 -> w <> VNil ->
      passes gs w s2 ret' s3 -> passes (Guard (Some c) (Some e) :: gs) ret s ret' s3.
  (* f is applied to the value of a call of h *)
  Definition then_calls (h : func D) (l : option value) (r : value) (s : st) (k : value -> st -> outcome value -> st -> Prop) (o : outcome value) (s' : st) : Prop :=
    (exists v s1, calls h l r s (Ok v) s1 /\ k v s1 o s') \/ (failed o /\ calls h l r s o s').

  (* runs in which all steps satisfy P *)
  Fixpoint run (P : task D X -> bool) (stp : (task D X -> M D X value) -> task D X -> M D X value) (n : nat) (t : task D X) : M D X value :=
    match n with O => fun _ => None | S n => if P t then stp (run P stp n) t else fun _ => None end.
  Definition ends_with P stp (t : task D X) (s : st) (o : outcome value) (s' : st) : Prop := exists n, run P stp n t s = Some (o, s').
  (* no modified (X f← v) and no indexed (X[i]←v) assignment *)
  Definition plain (t : task D X) : bool :=
    match t with
    | TCall (FDer op lo _) l _ =>
        negb (String.eqb op assign_op) ||
        match l, lo with
        | None, Some (EVar _) | None, Some (EArray _) | None, Some (EFn (FVar _)) => true
        | _, _ => false
        end
    | _ => true
    end.
  (* a lambda in which a statement that is a call of ∇ has no condition, and has a left
     argument if the lambda was called with one *)
  Definition clean_statement (l : option value) (g : guard D) : bool :=
    match g with
    | Guard c (Some (EApp FSelf tl _ sel)) => negb sel && match c with None => true | _ => false end && match l, tl with Some _, None => false | _, _ => true end
    | _ => true
    end.
  Definition clean (t : task D X) : bool := match t with TLoop body l _ => forallb (clean_statement l) body | _ => true end.
  Definition orderly (t : task D X) : bool := plain t && clean t.
  (* the interpreter without tail calls: a call of ∇ is evaluated like any other call *)
  Fixpoint ordinary_guards (self : task D X -> M D X value) (gs : list (guard D)) (ret : value) : M D X value :=
    match gs with
    | [] => mret ret
    | Guard c e :: gs' =>
        if match c with None => true | Some _ => false end && match gs' with [] => false | _ => true end && negb (isAssignment e) then mfail else
        do v <- guard_eval G self c e;
        match v with
        | None | Some VNil => ordinary_guards self gs' ret
        | Some v => if isAssignment e then ordinary_guards self gs' v else mret v
        end
    end.
  Definition ordinary_step (self : task D X -> M D X value) (t : task D X) : M D X value :=
    match t with
    | TLoop body l r => fun s => ordinary_guards self body (VD (l_emptyD G)) (set_top Omega r (set_top Alpha (optv l) s))
    | _ => step G self t
    end.

  (* variables of the current environment *)
  Definition variable (x : name) : Prop := match x with Num _ | Fun _ | Omega => True | _ => False end.
  Definition fits_name (x : name) (v : value) : Prop := match x with Fun _ => isFn v = true | _ => isFn v = false end.
  (* the names of the variables of all environments *)
  Definition variable_names (s : st) : list (list name) := map (map fst) (envs s).
  (* a history of assignments in the current environment *)
  Definition assign_all (h : list (name * value)) (s : st) : st := fold_left (fun s xv => snd (AssignEnv G (fst xv) (snd xv) None s)) h s.
  Fixpoint latest (x : name) (v0 : value) (h : list (name * value)) : value :=
    match h with
    | [] => v0
    | (y, v) :: h' => latest x (if name_eqb y x && Bool.eqb (isFn v) (match x with Fun _ => true | _ => false end) then v else v0) h'
    end.
End S.
