(* M_Execute.v -- model of apl/eval.go:62-73 EvalProgram and of the primitive ⍎ (execute),
   apl/primitives/format.go:138-158.  The parser (M_Parse.v) is not called here: its
   result for the text of the right argument is the argument p. *)
From Verif Require Import Base M_Syntax M_Eval.
From Coq Require Import String List.
Import ListNotations.
Open Scope list_scope.

Section Execute.
  Context {D X : Type} (G : lang D X).
  Local Notation value := (value D). Local Notation M := (M D X).
  (* eval.go:63-73 EvalProgram: no value is printed *)
  Definition EvalProgram (n : nat) (p : list (expr D)) : M (list value) := mmap (fun e => interp G n (TEval e)) p.
  (* fmt.Fprintln(a.GetOutput(), v.String(a.Format)); the method of nil panics *)
  Definition println (v : value) : M unit :=
    match v with VNil => mpanic | _ => fun s => Some (Ok tt, mkSt (envs s) (pkgs s) (origin s) (out s ++ [v]) (ext s)) end.
  (* format.go:138-158 execute *)
  Definition execute (n : nat) (p : outcome (list (expr D))) : M value :=
    match p with
    | Ok p =>
        do vs <- EvalProgram n p;
        match vs with
        | [] => mret (VD (l_emptyD G))
        | _ => do _ <- mmap println (removelast vs); mret (last vs VNil)
        end
    | Err => mfail
    | Panic => mpanic
    end.
End Execute.
