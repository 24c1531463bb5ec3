(* S_AssignEval.v -- vocabulary for modified, selective and vector assignment (C161). *)
From Verif Require Import Base M_Syntax M_Eval S_Eval.
From Coq Require Import String List.
Import ListNotations.
Open Scope list_scope.

Section S.
  Context {D X : Type} (G : lang D X).
  Local Notation value := (value D). Local Notation st := (st D X). Local Notation expr := (expr D). Local Notation func := (func D).

  (* Looking from the innermost environment outwards, x is first bound in the environment
     with h others around it, to w. *)
  Definition found (s : st) (x : name) (w : value) (h : nat) : Prop :=
    exists inner f outer, envs s = inner ++ f :: outer /\ length outer = h /\ (forall g, In g inner -> fget g x = None) /\ fget f x = Some w.
  Definition nowhere (s : st) (x : name) : Prop := forall f, In f (envs s) -> fget f x = None.
  (* s' is s with x bound to v in the environment with h others around it; nothing else
     has changed *)
  Definition stored (s : st) (x : name) (v : value) (h : nat) (s' : st) : Prop :=
    (exists inner f f' outer, envs s = inner ++ f :: outer /\ envs s' = inner ++ f' :: outer /\ length outer = h /\
       fget f' x = Some v /\ forall y, y <> x -> fget f' y = fget f y) /\
    pkgs s' = pkgs s /\ origin s' = origin s /\ out s' = out s /\ ext s' = ext s.
  (* an optional left argument is evaluated *)
  Definition left_arg (l : option expr) (s : st) (lv : option value) (s' : st) : Prop :=
    match l with None => lv = None /\ s' = s | Some e => exists v, lv = Some v /\ evaluates G e s v s' end.
  Definition no_arrow (f : func) : Prop := match f with FDer op _ _ => op <> assign_op | _ => True end.
  (* the handler of the primitive p that takes the arguments, the latest one first *)
  Definition takes (p : string) (x : X) (l : option value) (r : value) (h : handler D X) (l' : option value) (r' : value) : Prop :=
    exists h1 h2, l_primitives G p = h1 ++ h :: h2 /\ (forall g, In g h1 -> hto g x l r = None) /\ hto h x l r = Some (l', r').
  (* the operator that takes the operands, the latest one first; all operators of a symbol
     have the same number of operands *)
  Definition takes_operands (op : string) (x : X) (lo : value) (ro : option value) (o : operator D X) (lo' : value) (ro' : option value) : Prop :=
    exists o1 o2, l_operators G op = o1 ++ o :: o2 /\ (forall g, In g o1 -> oto g x lo ro = None) /\ oto o x lo ro = Some (lo', ro') /\
      match l_operators G op with o0 :: _ => odyadic o0 = (match ro with Some _ => true | None => false end) | [] => True end.
  (* The target e of a selective assignment: the value of the variable x at its right end
     goes through the selection of the function left of it, which gives indexes i instead
     of elements, and the functions further to the left are applied to these indexes. *)
  Inductive selection : expr -> name -> st -> value -> st -> Prop :=
  | sel_primitive p l x b s w lv s1 h l' r' i s2 :
      evaluates G (EVar x) s w s -> left_arg l s lv s1 -> takes p (ext s1) lv w h l' r' -> ends G (TCode (hselect h l' r')) s1 (Ok i) s2 ->
      selection (EApp (FPrim p) l (EVar x) b) x s i s2
  | sel_operator op lo l x b s w lv s1 lov s2 o lo' ro' i s3 :
      op <> assign_op -> evaluates G (EVar x) s w s -> left_arg l s lv s1 -> evaluates G lo s1 lov s2 -> takes_operands op (ext s2) lov None o lo' ro' ->
      ends G (TCode (oselect o lv lo' ro' w)) s2 (Ok i) s3 ->
      selection (EApp (FDer op (Some lo) None) l (EVar x) b) x s i s3
  | sel_outer f l e x b s i s1 lv s2 j s3 :
      no_arrow f -> selection e x s i s1 -> left_arg l s1 lv s2 -> calls G f lv i s2 (Ok j) s3 ->
      selection (EApp f l e b) x s j s3.
End S.
