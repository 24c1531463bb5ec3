(* S_Chan.v -- specification of channels: the values that a channel expression delivers and
   what the operations on it return, as functions of lists. *)
From Verif Require Import Base M_Chan.
From Coq Require Import List Bool Arith.
Import ListNotations.
Open Scope list_scope.
Open Scope nat_scope.

Section Spec.
  Context {V : Type} (errV emptyV oneV : V) (isEmpty : V -> bool) (ravel : V -> list V) (pack : list nat -> list V -> V).
  Local Notation func := (func V).

  (* channel expressions *)
  Inductive plan :=
  | Values (vs : list V)                                   (* <¨R: send the elements of R *)
  | File (lines : list V)                                  (* read the lines of a file *)
  | Repeat (v : V) (n : nat)                               (* <[n] R *)
  | Map (f : func) (lv : option V) (filt : bool) (p : plan)   (* L f¨C, f¨C *)
  | Zip (f : func) (filt : bool) (pl p : plan)             (* C f¨ D *)
  | Scope (p : plan)                                       (* ⎕←C *)
  | Reshape (shape : list nat) (p : plan)                  (* L⍴C *)
  | Cells (scan : list V -> bool -> list V) (p : plan).    (* <⍤k C, scan gives the cells of a text *)

  (* the values of a channel expression *)
  Inductive lefts := Const (o : option V) | Stream (vs : list V).
  Definition lhead (l : lefts) : option V := match l with Const o => o | Stream vs => hd_error vs end.
  Definition ltail (l : lefts) : lefts := match l with Const o => Const o | Stream vs => Stream (tl vs) end.
  (* f applied to every value; the first error ends the stream with an error value *)
  Fixpoint through (f : func) (filt : bool) (l : lefts) (vs : list V) : list V :=
    match vs with
    | [] => []
    | v :: vs' =>
        match f (lhead l) v with
        | Ok w => (if filt && isEmpty w then [] else [w]) ++ through f filt (ltail l) vs'
        | _ => [errV]
        end
    end.
  (* consecutive groups of n elements, an incomplete group at the end is dropped *)
  Definition groups (n : nat) (es : list V) : list (list V) := map (fun i => firstn n (skipn (i * n) es)) (seq 0 (length es / n)).
  Fixpoint outputs (p : plan) : list V :=
    match p with
    | Values vs | File vs => vs
    | Repeat v n => repeat v n
    | Map f lv filt p => through f filt (Const lv) (outputs p)
    | Zip f filt pl p => through f filt (Stream (outputs pl)) (outputs p)
    | Scope p => outputs p
    | Reshape shape p => map (pack shape) (groups (chunk_size shape) (concat (map ravel (outputs p))))
    | Cells scan p => scan (outputs p) true
    end.

  (* the results of operations on a channel that delivers vs *)
  Definition fold1 (f : func) (vs : list V) : outcome V :=
    match vs with [] => Ok emptyV | v :: vs' => fold_left (fun a x => let* a := a in f (Some a) x) vs' (Ok v) end.
  Definition scan1 (f : func) (vs : list V) : outcome V :=
    let* l := mapM (fun i => fold1 f (firstn (S i) vs)) (seq 0 (length vs)) in
    Ok (match l with [] => emptyV | _ => pack [length l] l end).
  Fixpoint results (ops : list (op V)) (vs : list V) : list (outcome V) :=
    match ops with
    | [] => []
    | Take _ :: ops' => match vs with v :: vs' => Ok v :: results ops' vs' | [] => Err :: results ops' [] end
    | TakeN _ shape :: ops' =>
        let n := chunk_size shape in
        if n <=? length vs then Ok (pack shape (firstn n vs)) :: results ops' (skipn n vs) else Err :: results ops' []
    | Show _ :: ops' => map Ok vs ++ results ops' []
    | CloseC _ :: ops' => Ok oneV :: results ops' []
    | Reduce f _ :: ops' => fold1 f vs :: results ops' []
    | ScanC f _ :: ops' => scan1 f vs :: results ops' []
    | SendC _ v :: ops' => Ok v :: results ops' vs
    end.

  (* the operations that close a channel; a channel can be closed once *)
  Definition closing (o : op V) : bool := match o with CloseC _ | Reduce _ _ | ScanC _ _ => true | _ => false end.
  Definition no_panic (f : func) : Prop := forall l v, f l v <> Panic.
  Definition use_of (c : nat) (o : op V) : Prop :=
    match o with
    | Take d | Show d | CloseC d => d = c
    | TakeN d shape => d = c /\ 0 < chunk_size shape
    | Reduce f d | ScanC f d => d = c /\ no_panic f
    | SendC _ _ => False
    end.
  Definition closes (ops : list (op V)) : nat := length (filter closing ops).
  Definition tidy (c : nat) (ops : list (op V)) : Prop := Forall (use_of c) ops /\ closes ops <= 1.

  (* a scanner: what has been found stays found when more text comes *)
  Definition begins (a b : list V) : Prop := exists c, b = a ++ c.
  Definition steady (scan : list V -> bool -> list V) : Prop :=
    scan [] false = [] /\ (forall got v, begins (scan got false) (scan (got ++ [v]) false)) /\ forall got, begins (scan got false) (scan got true).
  (* no function panics; a reshape or a reader of cells is not below what may be closed early *)
  Fixpoint plain (p : plan) : Prop :=
    match p with
    | Values _ | File _ => True
    | Repeat _ n => 1 <= n
    | Map f _ _ p => no_panic f /\ plain p
    | Zip f _ pl p => no_panic f /\ plain pl /\ plain p
    | Scope p => plain p
    | Reshape _ _ | Cells _ _ => False
    end.
  Definition never_fails (f : func) : Prop := forall l v, f l v <> Err.
  Fixpoint fits (p : plan) : Prop :=
    match p with
    | Map f _ _ p => no_panic f /\ (plain p \/ (never_fails f /\ fits p))
    | Zip f _ pl p => no_panic f /\ plain pl /\ (plain p \/ (never_fails f /\ fits p))
    | Scope p => fits p
    | Cells scan p => steady scan /\ fits p
    | Reshape shape p => 0 < chunk_size shape /\ fits p
    | _ => plain p
    end.

  (* expressions whose goroutines look at the cancellation before they send *)
  Fixpoint polite (p : plan) : Prop :=
    match p with Values _ | File _ | Repeat _ _ => True | Scope p => polite p | _ => False end.
  (* f applied to such expressions *)
  Definition one_apply (p : plan) : Prop :=
    match p with Map _ _ _ p => polite p | Zip f _ pl p => never_fails f /\ polite pl /\ polite p | p => polite p end.
  (* expressions that are never left early *)
  Fixpoint drains (p : plan) : Prop :=
    match p with
    | Map f _ _ p => never_fails f /\ drains p
    | Zip f _ pl p => never_fails f /\ polite pl /\ drains p
    | Scope p | Reshape _ p | Cells _ p => drains p
    | _ => True
    end.
  (* operations after which the channel is exhausted *)
  Definition exhausts (ops : list (op V)) : Prop := exists o, In o ops /\ match o with Show _ | CloseC _ | Reduce _ _ | ScanC _ _ => True | _ => False end.

  (* the goroutines of an expression: the channel of the expression is c, the channels of
     its parts follow *)
  Fixpoint count (p : plan) : nat :=
    match p with
    | Values _ | File _ | Repeat _ _ => 1
    | Map _ _ _ p | Scope p | Reshape _ p | Cells _ p => S (count p)
    | Zip _ _ pl p => S (count p + count pl)
    end.
  Fixpoint goroutines (c : nat) (p : plan) : list (proc V) :=
    match p with
    | Values vs => [sendall c vs]
    | File vs => [PLines c vs]
    | Repeat v n => [source c v (Z.of_nat n)]
    | Map f lv filt p => PApply c (S c) (LVal lv) f filt ALoop :: goroutines (S c) p
    | Zip f filt pl p => PApply c (S c) (LChan (S c + count p)) f filt ALoop :: goroutines (S c) p ++ goroutines (S c + count p) pl
    | Scope p => PScope c (S c) [] SLoop :: goroutines (S c) p
    | Reshape shape p => PRho c (S c) shape (RLoop []) :: goroutines (S c) p
    | Cells scan p => PCells c (S c) scan (CLoop []) :: goroutines (S c) p
    end.
  (* the main program is goroutine 0 and uses channel 1 *)
  Definition system (p : plan) (ops : list (op V)) : sys V := mkSys (main_next oneV ops [] :: goroutines 1 p) [].
  Definition returned (s : sys V) (log : list (outcome V)) : Prop := nth_error (procs s) 0 = Some (PMain MIdle [] log).
End Spec.
(* nothing can happen any more; a schedule that is followed to its end *)
Definition finished {V} (step : sys V -> label V -> sys V -> Prop) (s : sys V) : Prop := forall lab s', ~ step s lab s'.
(* what the main program has got so far *)
Definition got_so_far {V} (s : sys V) (log : list (outcome V)) : Prop := exists st ops, nth_error (procs s) 0 = Some (PMain st ops log).
(* all goroutines but the main program have returned *)
Definition all_ended {V} (s : sys V) : Prop := forall i P, 0 < i -> nth_error (procs s) i = Some P -> P = PEnd.
Arguments plan V : clear implicits. Arguments lefts V : clear implicits.
