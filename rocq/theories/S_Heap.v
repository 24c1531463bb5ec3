(* S_Heap.v -- what a value in the heap means: a finite tree, read from the cells. *)
From Verif Require Import Base Eff M_Heap.
From Coq Require Import List ZArith Bool.
Import ListNotations.

Section Trees.
  Context {A U : Type} {BR : ByRef U}.
  Local Notation hval := (hval A). Local Notation hdr := (hdr A U). Local Notation heap := (heap A U).
  Inductive tree := Leaf (a : A) | Node (h : hdr) (ts : list tree).
  (* reads h v t ls: the value v is the tree t; it is stored in the cells ls; none of them is an
     array that Copy does not copy (a ComplexArray, an Image) *)
  Inductive reads (h : heap) : hval -> tree -> list nat -> Prop :=
  | rd_atom a : reads h (HAtom a) (Leaf a) []
  | rd_ref l c ts ls : nth_error h l = Some c -> by_reference (hdof c) = false -> reads_all h (kids c) ts ls -> reads h (HRef l) (Node (hdof c) ts) (l :: ls)
  with reads_all (h : heap) : list hval -> list tree -> list nat -> Prop :=
  | rd_nil : reads_all h [] [] []
  | rd_cons v t ls vs ts ls' : reads h v t ls -> reads_all h vs ts ls' -> reads_all h (v :: vs) (t :: ts) (ls ++ ls').
  (* v is a value at all: everything it refers to exists, and it does not contain itself, or an
     array that is copied by reference *)
  Definition is_value (h : heap) (v : hval) : Prop := exists t ls, reads h v t ls.
  (* two values have a cell in common *)
  Definition share (h : heap) (v w : hval) : Prop :=
    exists t ls t' ls' l, reads h v t ls /\ reads h w t' ls' /\ In l ls /\ In l ls'.
  (* a function that changes nothing that is there, and builds its result from its arguments
     and new cells, as the primitive functions do *)
  Definition builds (f : mfun A U) : Prop :=
    forall h v w t ls t' ls', reads h v t ls -> reads h w t' ls' ->
    exists o h1, f v w h = (o, h ++ h1) /\
      forall r, o = Ok r -> exists tr lr, reads (h ++ h1) r tr lr /\ forall x, In x lr -> (length h <= x)%nat \/ In x ls \/ In x ls'.
  Context {K : Type}.
  Local Notation hstate := (hstate A U K).
  (* the value of a variable *)
  Definition value_of (s : hstate) (k : K) (t : tree) : Prop := exists v ls, vars s k = Some v /\ reads (hp s) v t ls.
  Definition initial : hstate := mkHS [] (fun _ => None).
End Trees.
Arguments tree : clear implicits.

Section History.
  Context {A U K : Type} {BR : ByRef U} (conv : U -> A -> option A) (origin : Z) (K_dec : forall a b : K, {a = b} + {a <> b}).
  Local Notation hstate := (hstate A U K). Local Notation action := (action A U K).
  (* the variables that hold an argument of a lambda that is running *)
  Definition params (a : action) (P : K -> Prop) : K -> Prop :=
    match a with
    | Pass k _ => fun k' => k' = k \/ P k'
    | Assign k _ | Return k => fun k' => k' <> k /\ P k'
    | _ => P
    end.
  (* what an action may use: existing values, and a function as above *)
  Definition uses (s : hstate) (a : action) : Prop :=
    match a with
    | Eval c => Forall (is_value (hp s)) (kids c)
    | Assign _ R | Pass _ R => is_value (hp s) R
    | Return _ | NewKey _ _ => True
    | Update _ f _ _ R => is_value (hp s) R /\ match f with Some f => builds f | None => True end
    end.
  Definition target (a : action) : option K :=
    match a with
    | Eval _ => None
    | Assign k _ | Pass k _ | Return k | Update k _ _ _ _ | NewKey k _ => Some k
    end.
  (* an indexed assignment *)
  Definition updates (a : action) : option K :=
    match a with Update k _ _ _ _ | NewKey k _ => Some k | _ => None end.
  (* a history of actions: from the state s to the state s', with whatever outcome of each action *)
  Inductive history : hstate -> list action -> hstate -> Prop :=
  | hist_nil s : history s [] s
  | hist_cons s a o s1 acts s' : uses s a -> exec conv origin K_dec a s = (o, s1) ->
      history s1 acts s' -> history s (a :: acts) s'.
  (* the variables that are arguments after these actions, if P are before *)
  Fixpoint params_after (P : K -> Prop) (acts : list action) : K -> Prop :=
    match acts with [] => P | a :: acts' => params_after (params a P) acts' end.
  (* the actions never assign to parts of an argument of a running lambda *)
  Fixpoint respects (P : K -> Prop) (acts : list action) : Prop :=
    match acts with
    | [] => True
    | a :: acts' => (forall k, updates a = Some k -> ~ P k) /\ respects (params a P) acts'
    end.
End History.
