(* M_Session.v -- a line of text from the input to the values that are shown: apl.go:74-94 Parse and
   ParseAndEval, and ⍎ of a text (apl/primitives/format.go:138-158 execute).  The scanner is M_Scan.v,
   the parser M_Parse.v, the interpreter M_Eval.v and M_Execute.v. *)
From Coq Require Import String List ZArith.
From Verif Require Import Base M_Scan M_Syntax M_Parse M_Eval M_Execute.
Import ListNotations.
Open Scope list_scope.

Section Session.
  Context {D X : Type} (L : lang D X) (G : grammar D) (C : scanner).
  (* apl.go:74-86 Parse *)
  Definition ParseLine (line : text) : outcome (list (option (expr D))) := let* toks := Scan C line in parse G toks.
  (* an empty statement is a nil expression, whose method Eval panics: the statements before it, and is
     there none *)
  Fixpoint before_nil (p : list (option (expr D))) : list (expr D) * bool :=
    match p with
    | [] => ([], true)
    | Some e :: p' => let (es, b) := before_nil p' in (e :: es, b)
    | None :: _ => ([], false)
    end.
  (* apl.go:88-94 ParseAndEval; Eval turns a panic into an error *)
  Definition ParseAndEval (n : nat) (line : text) : M D X unit :=
    match ParseLine line with
    | Ok p => let (es, b) := before_nil p in do _ <- Eval L n es; if b then mret Datatypes.tt else mfail
    | Err => mfail
    | Panic => mpanic
    end.
  (* format.go:140-158 execute *)
  Definition ExecuteText (n : nat) (line : text) : M D X (value D) :=
    match ParseLine line with
    | Ok p => let (es, b) := before_nil p in if b then execute L n (Ok es) else do _ <- EvalProgram L n es; mpanic
    | Err => mfail
    | Panic => mpanic
    end.
End Session.
