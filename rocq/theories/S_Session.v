(* S_Session.v -- sentences of the language and what they mean, from the words on.

   A sentence is a row of literals, a variable, a sentence in parentheses, or a function applied to
   the sentence on its right and, if there is one, to the operand on its left.  A function is a
   primitive, a primitive with a monadic operator like +/, or an assignment to a variable. *)
From Coq Require Import String List ZArith.
From Verif Require Import Base M_Scan M_Syntax M_Parse M_Eval S_Eval.
Import ListNotations.
Open Scope list_scope.

Section Sentences.
  Context {D X : Type} (L : lang D X) (G : grammar D).
  Inductive fn := Prim (f : token) | Derived (f op : token) | Assign (x : token) (op : token).
  Inductive sent :=
  | Lit (l : list (token * D))      (* each literal and its value *)
  | Var (x : token)
  | Par (s : sent)
  | Mon (f : fn) (s : sent)
  | Dya (a : sent) (f : fn) (s : sent).

  (* the words of a sentence *)
  Definition fn_words (f : fn) : list token := match f with Prim t => [t] | Derived t op => [t; op] | Assign x op => [x; op] end.
  Fixpoint sent_words (s : sent) : list token :=
    match s with
    | Lit l => map fst l
    | Var x => [x]
    | Par s => Tok LeftParen [40%Z] :: sent_words s ++ [Tok RightParen [41%Z]]
    | Mon f s => fn_words f ++ sent_words s
    | Dya a f s => sent_words a ++ fn_words f ++ sent_words s
    end.

  Definition sym (t : token) : string := utf8 (ts t).
  Definition is_literal (td : token * D) : Prop :=
    ((tt (fst td) = Number /\ g_number G (ts (fst td)) = Some (snd td)) \/ (tt (fst td) = M_Scan.String /\ snd td = g_string G (ts (fst td))))
    /\ l_isArr L (snd td) = false.
  Definition is_variable (t : token) : Prop := tt t = Identifier /\ isVarname (name_of (g_unicode G) (ts t)) = (true, false).
  Definition is_primitive (t : token) : Prop := tt t = Symbol /\ g_primitive G (sym t) = true.
  Definition is_monadic_operator (t : token) : Prop := tt t = Symbol /\ g_primitive G (sym t) = false /\ g_operator G (sym t) = Some false /\ sym t <> "∘"%string.
  Definition fn_ok (f : fn) : Prop :=
    match f with
    | Prim t => is_primitive t
    | Derived t op => is_primitive t /\ is_monadic_operator op /\ sym op <> "←"%string
    | Assign x op => is_variable x /\ is_monadic_operator op /\ sym op = "←"%string
    end.
  Fixpoint sent_ok (s : sent) : Prop :=
    match s with
    | Lit l => l <> [] /\ Forall is_literal l
    | Var x => is_variable x
    | Par s => sent_ok s
    | Mon f s => fn_ok f /\ sent_ok s
    | Dya a f s => match a with Lit _ | Var _ | Par _ => True | _ => False end /\ sent_ok a /\ match f with Assign _ _ => False | _ => fn_ok f end /\ sent_ok s
    end.

  (* the function that is called *)
  Definition fn_func (f : fn) : func D :=
    match f with
    | Prim t => FPrim (sym t)
    | Derived t op => FDer (sym op) (Some (EFn (FPrim (sym t)))) None
    | Assign x op => FDer (sym op) (Some (EVar (name_of (g_unicode G) (ts x)))) None
    end.
  (* one literal is a scalar, several are a vector *)
  Definition row (l : list D) : value D := match l with [d] => VD d | _ => VD (l_mkarr L (map (@VD D) l)) end.
  (* the value of a variable; a name without a value stands for itself *)
  Definition variable (s : st D X) (x : token) : value D :=
    match Lookup L s (name_of (g_unicode G) (ts x)) with VNil => VId (name_of (g_unicode G) (ts x)) | v => v end.
  (* meaning s o s': the sentence ends with the outcome o; the right argument comes first *)
  Inductive meaning : sent -> st D X -> outcome (value D) -> st D X -> Prop :=
  | m_lit l s : meaning (Lit l) s (Ok (row (map snd l))) s
  | m_var x s : meaning (Var x) s (Ok (variable s x)) s
  | m_par e s o s' : meaning e s o s' -> meaning (Par e) s o s'
  | m_mon f e s v s1 o s' : meaning e s (Ok v) s1 -> calls L (fn_func f) None v s1 o s' -> meaning (Mon f e) s o s'
  | m_mon_failed f e s o s' : meaning e s o s' -> failed o -> meaning (Mon f e) s o s'
  | m_dya a f e s v s1 w s2 o s' : meaning e s (Ok v) s1 -> meaning a s1 (Ok w) s2 -> calls L (fn_func f) (Some w) v s2 o s' -> meaning (Dya a f e) s o s'
  | m_dya_right a f e s o s' : meaning e s o s' -> failed o -> meaning (Dya a f e) s o s'
  | m_dya_left a f e s v s1 o s' : meaning e s (Ok v) s1 -> meaning a s1 o s' -> failed o -> meaning (Dya a f e) s o s'.

  (* a line: sentences with diamonds between them *)
  Fixpoint line_words (l : list sent) : list token :=
    match l with [] => [] | [s] => sent_words s | s :: l' => sent_words s ++ Tok Diamond [8900%Z] :: line_words l' end.
  (* the values of all sentences but assignments are shown *)
  Fixpoint is_assignment (s : sent) : bool := match s with Mon (Assign _ _) _ => true | Par s => is_assignment s | _ => false end.
  Definition shown (s : sent) (v : value D) (st : st D X) : M_Eval.st D X :=
    if is_assignment s then st else mkSt (envs st) (pkgs st) (origin st) (out st ++ [v]) (ext st).
  Inductive session : list sent -> st D X -> outcome unit -> st D X -> Prop :=
  | se_end s : session [] s (Ok Datatypes.tt) s
  | se_value e l s v s1 o s' : meaning e s (Ok v) s1 -> is_assignment e = true \/ v <> VNil -> session l (shown e v s1) o s' -> session (e :: l) s o s'
  | se_failed e l s o s1 : meaning e s o s1 -> failed o -> session (e :: l) s Err s1
  | se_nothing e l s s1 : meaning e s (Ok VNil) s1 -> is_assignment e = false -> session (e :: l) s Err s1.
  (* the words do not start with a command *)
  Definition no_command (C : scanner) (l : list token) : Prop :=
    forall f c r, l = Tok Symbol f :: Tok Identifier c :: r -> s_commands C c = None.
End Sentences.
Arguments sent : clear implicits.
