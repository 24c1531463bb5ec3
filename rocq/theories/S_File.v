(* S_File.v -- what it means to run a file. *)
From Verif Require Import Base M_Scan M_Syntax M_Parse S_Parse M_File.
From Coq Require Import List.
Import ListNotations.
Open Scope Z_scope.
Open Scope list_scope.

Section Spec.
  Context {D St : Type} (G : grammar D) (C : scanner) (eval : list (option (expr D)) -> St -> outcome unit * St).
  Definition blank (l : text) : Prop := Scan C l = Ok [].
  Definition unreadable (l : text) : Prop := forall t, Scan C l <> Ok t.
  (* after each of these lines there are braces to be closed *)
  Definition open_lines (ls : list text) (ts : list (list token)) : Prop :=
    Forall2 (fun l t => Scan C l = Ok t) ls ts
    /\ forall a b, ts = a ++ b -> a <> [] -> no_surplus (joined a) /\ 0 < open_braces (joined a).
  (* the lines of one statement (or of a few, with diamonds): the last one closes all braces *)
  Inductive statement : list text -> list (list token) -> Prop :=
  | stat ls ts l t : open_lines ls ts -> Scan C l = Ok t -> t <> [] -> no_surplus (joined (ts ++ [t])) ->
      open_braces (joined (ts ++ [t])) = 0 -> statement (ls ++ [l]) (ts ++ [t]).
  (* running the lines, of which the first one has the number n + 1 *)
  Inductive file_ends : Z -> list text -> St -> fileres -> St -> Prop :=
  | fe_nil n s : file_ends n [] s FOk s
  | fe_blank n l rest s r s' : blank l -> file_ends (n + 1) rest s r s' -> file_ends n (l :: rest) s r s'
  | fe_run n ls ts rest p s s1 u r s2 : statement ls ts -> parse G (joined ts) = Ok p -> eval p s = (Ok u, s1) ->
      file_ends (n + zlen ls) rest s1 r s2 -> file_ends n (ls ++ rest) s r s2
  | fe_fails n ls ts rest p s s1 : statement ls ts -> parse G (joined ts) = Ok p -> eval p s = (Err, s1) ->
      file_ends n (ls ++ rest) s (FErr (n + zlen ls)) s1
  | fe_syntax n ls ts rest s : statement ls ts -> parse G (joined ts) = Err -> file_ends n (ls ++ rest) s (FErr (n + zlen ls)) s
  | fe_panic n ls ts rest s : statement ls ts -> parse G (joined ts) = Panic -> file_ends n (ls ++ rest) s FPanic s
  | fe_unread n ls ts l rest s : open_lines ls ts -> unreadable l -> file_ends n (ls ++ l :: rest) s (FErr (n + zlen ls + 1)) s
  | fe_surplus n ls ts l t rest s : open_lines ls ts -> Scan C l = Ok t -> ~ no_surplus (joined (ts ++ [t])) ->
      file_ends n (ls ++ l :: rest) s (FErr (n + zlen ls + 1)) s
  | fe_open n ls ts s : open_lines ls ts -> ls <> [] -> file_ends n ls s (FErr (n + zlen ls)) s.
End Spec.
