(* S_Grammar.v -- specification of the grammar of statements, on tokens: how tokens form
   nouns, verbs and operators, and how these form expressions.  The rules for sentences
   are in S_Parse.v. *)
From Coq Require Import String List Bool ZArith.
From Verif Require Import Base M_Scan M_Syntax M_Parse S_Parse.
Import ListNotations.
Open Scope list_scope.

(* lists of tokens with separators between them, or behind each of them *)
Inductive separated (ty : ttype) : list (list token) -> list token -> Prop :=
| sep_one p : separated ty [p] p
| sep_more p s ps l : tt s = ty -> separated ty ps l -> separated ty (p :: ps) (p ++ s :: l).
Inductive terminated (ty : ttype) : list (list token) -> list token -> Prop :=
| term_nil : terminated ty [] []
| term_more p s ps l : tt s = ty -> terminated ty ps l -> terminated ty (p :: ps) (p ++ s :: l).
(* every token of that type is inside of parentheses *)
Definition in_parens (ty : ttype) (l : list token) : Prop :=
  forall a t b, l = a ++ t :: b -> tt t = ty -> (count RightParen a < count LeftParen a)%Z.

Section Grammar.
  Context {D : Type} (G : grammar D).
  Local Notation expr := (expr D).
  Local Notation piece := (piece D).
  Local Notation guard := (guard D).
  Definition nameof (t : token) : name := name_of (g_unicode G) (ts t).
  Definition symbol (t : token) : string := utf8 (ts t).

  (* numbers, strings and variables that stand side by side form an array *)
  Definition in_array (t : token) : Prop :=
    tt t = Number \/ tt t = M_Scan.String \/ tt t = Chars \/ (tt t = Identifier /\ isVarname (nameof t) = (true, false)).
  Inductive atom : token -> list expr -> Prop :=
  | a_number t n : tt t = Number -> g_number G (ts t) = Some n -> atom t [EConst n]
  | a_string t : tt t = M_Scan.String -> atom t [EConst (g_string G (ts t))]
  | a_chars t : tt t = Chars -> atom t (map (fun r => EConst (g_string G [r])) (ts t))
  | a_var t : tt t = Identifier -> isVarname (nameof t) = (true, false) -> atom t [EVar (nameof t)].
  (* quoted strings with more than one character only at the end *)
  Inductive atoms : list token -> list expr -> Prop :=
  | as_nil : atoms [] []
  | as_cons t es l fs : atom t es -> atoms l fs -> (tt t = Chars -> (length (ts t) <= 1)%nat \/ fs = []) -> atoms (t :: l) (es ++ fs).
  Definition array_value (es : list expr) : expr := match es with [] => EConst (g_empty G) | [e] => e | _ => EArray es end.
  Definition apart (a b : list token) : Prop :=
    forall a' t u b', a = a' ++ [t] -> b = u :: b' -> ~ (in_array t /\ in_array u).

  (* the value of a statement; an assignment of a function is not a train *)
  Definition result (p : piece) : expr :=
    match p with
    | V (FTrain [EFn (FDer op lo ro); g]) => if String.eqb op assign_op then EApp (FDer op lo ro) None g false else as_expr p
    | _ => as_expr p
    end.
  Definition or_empty (e : option expr) : expr := match e with Some e => e | None => EConst (g_empty G) end.

  (* an operator; a jot before a dot is a function; nx is what follows *)
  Inductive operator (nx : option piece) : token -> piece -> Prop :=
  | o_monadic t : tt t = Symbol -> g_primitive G (symbol t) = false -> g_operator G (symbol t) = Some false -> symbol t <> "∘"%string ->
      operator nx t (Mop (symbol t))
  | o_dyadic t : tt t = Symbol -> g_primitive G (symbol t) = false -> g_operator G (symbol t) = Some true ->
      (symbol t = "∘"%string -> nx <> Some (Dop "."%string) /\ nx <> Some (Mop "."%string) /\ forall l r, nx <> Some (V (FDer "."%string l r))) ->
      operator nx t (Dop (symbol t))
  | o_jot t d : tt t = Symbol -> g_primitive G (symbol t) = false -> g_operator G (symbol t) = Some d ->
      symbol t = "∘"%string -> nx = Some (Dop "."%string) -> operator nx t (V (FPrim "∘"%string)).

  (* a statement *)
  Inductive reading : list token -> option expr -> Prop :=
  | rd_empty : reading [] None
  | rd_value toks p : phrase toks p -> reading toks (Some (result p))
  with phrase : list token -> piece -> Prop :=
  | ph toks ps p : chunks toks ps -> sentence ps p -> tame ps -> ~ ends_in_train ps -> phrase toks p
  with chunks : list token -> list piece -> Prop :=
  | cs_nil : chunks [] []
  | cs_cons a ps b qs : chunk (hd_error qs) a ps -> chunks b qs -> apart a b -> chunks (a ++ b) (ps ++ qs)
  with chunk : option piece -> list token -> list piece -> Prop :=
  | ch_base nx toks x : base toks x -> chunk nx toks [x]
  | ch_operator nx t x : operator nx t x -> chunk nx [t] [x]
  (* a noun with an index, a function or an operator with an axis *)
  | ch_index nx toks e b es : base toks (N e) -> brackets b es ->
      chunk nx (toks ++ b) [N (EApp (FPrim "⌷"%string) (Some (EIdx es)) e false)]
  | ch_axis nx t b a : tt t = Symbol -> g_primitive G (symbol t) = true -> brackets b [a] ->
      chunk nx (t :: b) [V (FDer "⍂"%string (Some (EFn (FPrim (symbol t)))) (Some a))]
  | ch_opaxis nx t x b a : operator None t x -> brackets b [a] -> (forall f, a <> EFn f) ->
      chunk nx (t :: b) [x; Dop "⍂"%string; N a]
  with base : list token -> piece -> Prop :=
  | b_array toks es : toks <> [] -> atoms toks es -> base toks (N (array_value es))
  | b_prim t : tt t = Symbol -> g_primitive G (symbol t) = true -> base [t] (V (FPrim (symbol t)))
  | b_name t : tt t = Identifier -> isVarname (nameof t) = (true, true) -> base [t] (V (FVar (nameof t)))
  | b_self t : tt t = Self -> base [t] (V FSelf)
  | b_paren t toks u p : tt t = LeftParen -> tt u = RightParen -> phrase toks p -> result p = as_expr p ->
      base (t :: toks ++ [u]) p
  | b_list t toks u parts es : tt t = LeftParen -> tt u = RightParen -> parts <> [] -> terminated Semicolon parts toks ->
      Forall (in_parens Semicolon) parts -> readings parts es -> base (t :: toks ++ [u]) (N (EList es))
  | b_lambda0 t u : tt t = LeftBrace -> tt u = RightBrace -> base [t; u] (V (FLam []))
  | b_lambda t toks u parts gs : tt t = LeftBrace -> tt u = RightBrace -> toks <> [] -> separated Diamond parts toks -> body parts gs ->
      base (t :: toks ++ [u]) (V (FLam gs))
  with brackets : list token -> list expr -> Prop :=
  | br_none t u : tt t = LeftBrack -> tt u = RightBrack -> brackets [t; u] []
  | br_some t toks u parts es : tt t = LeftBrack -> tt u = RightBrack -> toks <> [] -> separated Semicolon parts toks -> readings parts es ->
      brackets (t :: toks ++ [u]) (map or_empty es)
  with readings : list (list token) -> list (option expr) -> Prop :=
  | rs_nil : readings [] []
  | rs_cons part e parts es : reading part e -> readings parts es -> readings (part :: parts) (e :: es)
  (* the body of a lambda: guarded expressions c:e, the last one may have an else part c:e:t *)
  with guarded : list token -> guard -> Prop :=
  | gd_plain part e : reading part e -> guarded part (Guard None e)
  | gd_guard part pc pe c e : separated Colon [pc; pe] part -> reading pc c -> reading pe e -> guarded part (Guard c e)
  with body : list (list token) -> list guard -> Prop :=
  | bd_end : body [[]] []
  | bd_last part g : guarded part g -> g <> Guard None None -> body [part] [g]
  | bd_else part pc pe pt c e t : separated Colon [pc; pe; pt] part -> reading pc c -> reading pe e -> reading pt (Some t) ->
      body [part] [Guard c e; Guard None (Some t)]
  | bd_cons part g parts gs : guarded part g -> body parts gs -> body (part :: parts) (g :: gs).

  (* a program: statements with diamonds between them, a last diamond is ignored *)
  Inductive program : list token -> list (option expr) -> Prop :=
  | pg_last toks p : phrase toks p -> program toks [Some (result p)]
  | pg_end toks e d : reading toks e -> tt d = Diamond -> program (toks ++ [d]) [e]
  | pg_more toks e d rest es : reading toks e -> tt d = Diamond -> program rest es -> program (toks ++ d :: rest) (e :: es).
End Grammar.

Scheme reading_mut := Minimality for reading Sort Prop
  with phrase_mut := Minimality for phrase Sort Prop
  with chunks_mut := Minimality for chunks Sort Prop
  with chunk_mut := Minimality for chunk Sort Prop
  with base_mut := Minimality for base Sort Prop
  with brackets_mut := Minimality for brackets Sort Prop
  with readings_mut := Minimality for readings Sort Prop
  with guarded_mut := Minimality for guarded Sort Prop
  with body_mut := Minimality for body Sort Prop.
Combined Scheme grammar_ind from reading_mut, phrase_mut, chunks_mut, chunk_mut, base_mut, brackets_mut, readings_mut, guarded_mut, body_mut.
