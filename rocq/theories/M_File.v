(* M_File.v -- model of running files: apl/eval.go EvalFile and cmd/apl.go.

   The evaluation of a program (eval.go:16-61, M_Eval, C97) is a parameter: it ends with or
   without an error (panics are recovered there) in a new state. *)
From Verif Require Import Base M_Scan M_Syntax M_Parse.
From Coq Require Import List.
Import ListNotations.
Open Scope Z_scope.
Open Scope list_scope.

(* bufio.ScanLines: the lines end at each newline; one carriage return before it is dropped; there
   is no line after the last newline *)
Definition dropCR (l : text) : text := match rev l with 13 :: r => rev r | _ => l end.
Definition text_lines (s : text) : list text :=
  let l := split_lines s in
  map dropCR (match rev l with [] :: r => rev r | _ => l end).
(* bufio.Scanner: a line that does not fit into the buffer of 64 kB ends the loop (Scan returns
   false, and Err() is the error) *)
Fixpoint until {A} (p : A -> bool) (l : list A) : list A :=
  match l with [] => [] | x :: r => if p x then [] else x :: until p r end.

(* no error; an error with the number of the line; a panic of the parser *)
Inductive fileres := FOk | FErr (line : Z) | FPanic.

Section File.
  Context {D St : Type} (G : grammar D) (C : scanner).
  Context (eval : list (option (expr D)) -> St -> outcome unit * St).
  (* eval.go:95-121 the loop over the lines *)
  Fixpoint file_loop (lines : list text) (line : Z) (ok : bool) (b : buffer) (s : St) : fileres * St :=
    match lines with
    | [] => (if negb ok && negb (match b_tokens b with [] => true | _ => false end) then FErr line else FOk, s)
    | l :: lines' =>
        let line := line + 1 in
        match AddLine C l b with
        | (Ok true, b) =>
            let (p, b) := Parse G b in
            match p with
            | Ok p => match eval p s with
                      | (Ok _, s) => file_loop lines' line true b s
                      | (Err, s) => (FErr line, s)
                      | (Panic, s) => (FPanic, s)
                      end
            | Err => (FErr line, s)
            | Panic => (FPanic, s)
            end
        | (Ok false, b) => file_loop lines' line false b s
        | (_, b) => (FErr line, s)
        end
    end.
  Definition run_lines (lines : list text) (s : St) : fileres * St := file_loop lines 0 true NewLineBuffer s.
  (* eval.go:86-121 EvalFile *)
  Definition EvalFile (too_long : text -> bool) (content : text) (s : St) : fileres * St :=
    run_lines (until too_long (text_lines content)) s.
  (* cmd/apl.go:14-34 Apl with arguments: the loop returns in its first round.  An argument is a
     name or "-"; open gives the content of a file or of the standard input.  None: no argument,
     or the file cannot be opened *)
  Definition Apl (too_long : text -> bool) (open : text -> option text) (args : list text) (s : St) : option (fileres * St) :=
    match args with
    | [] => None
    | name :: _ => match open name with Some c => Some (EvalFile too_long c s) | None => None end
    end.
  (* apl.go:74-94 ParseAndEval *)
  Definition ParseAndEval (line : text) (s : St) : outcome unit * St :=
    match (let* toks := Scan C line in parse G toks) with
    | Ok p => eval p s
    | Err => (Err, s)
    | Panic => (Panic, s)
    end.
  (* cmd/apl.go:36-45 the interactive loop: an error is printed and the loop goes on.  The result
     tells for each line if there was an error; a panic of the parser ends the process *)
  Fixpoint repl (lines : list text) (s : St) : outcome (list bool) * St :=
    match lines with
    | [] => (Ok [], s)
    | l :: lines' =>
        match ParseAndEval l s with
        | (Panic, s) => (Panic, s)
        | (r, s) => let (e, s) := repl lines' s in
                    (let* e := e in Ok ((match r with Err => true | _ => false end) :: e), s)
        end
    end.
End File.
