(* S_Parse.v -- specification of the parser: the structure of a program, independent of
   the stack of the parser. *)
From Verif Require Import Base M_Scan M_Syntax.
From Coq Require Import String List Bool ZArith.
Import ListNotations.
Open Scope Z_scope.
Open Scope list_scope.

(* ---------- brackets ---------- *)
Inductive pair_of : ttype -> ttype -> Prop :=
| pair_paren : pair_of LeftParen RightParen
| pair_brack : pair_of LeftBrack RightBrack
| pair_brace : pair_of LeftBrace RightBrace.
Definition bracket (t : ttype) : Prop := exists u, pair_of t u \/ pair_of u t.
Inductive nested : list token -> Prop :=
| nested_nil : nested []
| nested_other t l : ~ bracket (tt t) -> nested l -> nested (t :: l)
| nested_pair t u a l : pair_of (tt t) (tt u) -> nested a -> nested l -> nested (t :: a ++ u :: l).

(* ---------- lines ---------- *)
Definition count (ty : ttype) (l : list token) : Z := zlen (filter (fun t => teqb (tt t) ty) l).
(* the number of braces that are open at the end *)
Definition open_braces (l : list token) : Z := count LeftBrace l - count RightBrace l.
(* no brace is closed before it is opened *)
Definition no_surplus (l : list token) : Prop := forall a b, l = a ++ b -> 0 <= open_braces a.
(* the lines of a text joined by diamonds, but not after an opening brace *)
Definition ends_open (l : list token) : bool := match rev l with [] => true | t :: _ => teqb (tt t) LeftBrace end.
Definition join2 (a b : list token) : list token :=
  match b with [] => a | _ => a ++ (if ends_open a then [] else [Tok Diamond [r_diamond]]) ++ b end.
Definition joined (lines : list (list token)) : list token := fold_left join2 lines [].

(* ---------- sentences ---------- *)
Section Sentence.
  Context {D : Type}.
  Local Notation expr := (expr D).
  Local Notation func := (func D).
  (* the parts of a sentence: nouns, verbs, monadic and dyadic operators *)
  Inductive piece := N (e : expr) | V (f : func) | Mop (op : string) | Dop (op : string).
  Definition operand (p : piece) : bool := match p with N _ | V _ => true | _ => false end.
  Definition as_expr (p : piece) : expr := match p with N e => e | V f => EFn f | Mop op | Dop op => EFn (FDer op None None) end.

  (* A word is an operand with the operators behind it: operators bind to all that is to
     the left of them, a dyadic operator takes one operand from the right. *)
  Inductive word : list piece -> piece -> Prop :=
  | word_operand x : operand x = true -> word [x] x
  | word_mop l w op : word l w -> word (l ++ [Mop op]) (V (FDer op (Some (as_expr w)) None))
  | word_dop l w op x : word l w -> operand x = true ->
      word (l ++ [Dop op; x]) (V (FDer op (Some (as_expr w)) (Some (as_expr x)))).
  Inductive words : list piece -> list piece -> Prop :=
  | words_nil : words [] []
  | words_cons a w b ws : word a w -> words b ws -> words (a ++ b) (w :: ws).

  (* the value of nouns and verbs: functions apply to all that is right of them *)
  Inductive value_of : list piece -> expr -> Prop :=
  | v_noun e : value_of [N e] e
  | v_monadic f l e : value_of l e -> value_of (V f :: l) (EApp f None e false)
  | v_dyadic a f l e : value_of l e -> value_of (N a :: V f :: l) (EApp f (Some a) e false).
  Inductive sentence : list piece -> piece -> Prop :=
  | s_value ps ws e : words ps ws -> value_of ws e -> sentence ps (N e)
  | s_verb ps f : words ps [V f] -> sentence ps (V f)
  | s_train ps fs : words ps (map V fs) -> (2 <= length fs)%nat -> sentence ps (V (FTrain (map EFn fs)))
  | s_fork ps a fs : words ps (N a :: map V fs) -> (2 <= length fs)%nat -> Nat.even (length fs) = true ->
      sentence ps (V (FTrain (a :: map EFn fs))).

  (* The sentences that the parser reads correctly.  It fails on a word with a dyadic or
     with two operators directly behind a word that ends with a monadic operator, and on
     three monadic operators in a row. *)
  Inductive awkward : list piece -> Prop :=
  | awk_mmm a b c : awkward [Mop a; Mop b; Mop c]
  | awk_dop a x b : operand x = true -> awkward [Mop a; x; Dop b]
  | awk_mop a x b y : operand x = true -> operand y = false -> awkward [Mop a; x; Mop b; y]
  | awk_axis a x y : operand x = true -> operand y = false -> awkward [Dop "⍂"; N a; x; y].
  Definition tame (l : list piece) : Prop := forall a m b, l = a ++ m ++ b -> ~ awkward m.
  (* A train in parentheses at the right end is not kept apart from the verbs before it. *)
  Definition ends_in_train (l : list piece) : Prop := exists a t, a <> [] /\ l = a ++ [V (FTrain t)].
End Sentence.
Arguments piece : clear implicits.

(* ---------- the history of a line buffer ---------- *)
Inductive event := Added (line : text) | Parsed.
(* pending C h ls: after the events h, with the latest event at the end, the lines ls, given
   by their tokens, wait for more: those since the last reset *)
Inductive pending (C : scanner) : list event -> list (list token) -> Prop :=
| p_new : pending C [] []
| p_parsed h ls : pending C h ls -> pending C (h ++ [Parsed]) []
| p_added h ls line toks : pending C h ls -> Scan C line = Ok toks -> no_surplus (joined (ls ++ [toks])) ->
    pending C (h ++ [Added line]) (ls ++ [toks])
| p_surplus h ls line toks : pending C h ls -> Scan C line = Ok toks -> ~ no_surplus (joined (ls ++ [toks])) ->
    pending C (h ++ [Added line]) []
| p_unread h ls line : pending C h ls -> (forall toks, Scan C line <> Ok toks) -> pending C (h ++ [Added line]) [].
