(* S_Scan.v -- specification of the tokens of a line.

   How a token is written, where it ends, and which lists of tokens a line stands for. *)
From Verif Require Import Base M_Scan.
From Coq Require Import ZArith List Bool.
Import ListNotations.
Open Scope Z_scope.

(* a string in single quotes: every quote inside is written twice *)
Fixpoint doubled (s : text) : text :=
  match s with [] => [] | r :: s' => if r =? r_quote then r_quote :: r_quote :: doubled s' else r :: doubled s' end.
(* the text between double quotes: a backslash escapes the next rune *)
Inductive escaped : text -> Prop :=
| esc_nil : escaped []
| esc_plain r s : r <> r_bslash -> r <> r_dquote -> escaped s -> escaped (r :: s)
| esc_pair r s : escaped s -> escaped (r_bslash :: r :: s).

Section Spec.
  Context (C : scanner).
  Local Notation U := (s_unicode C).

  (* the runes of a name after the first one: letters, digits, _, and at most one arrow *)
  Inductive name_tail : bool -> text -> Prop :=
  | nt_nil a : name_tail a []
  | nt_rune a r s : AllowedInVarname U r false = true -> name_tail a s -> name_tail a (r :: s)
  | nt_arrow s : name_tail true s -> name_tail false (r_arrow :: s).
  Definition has_arrow (w : text) : bool := in_runes r_arrow w.
  Definition starts_special (r : Z) : Prop :=
    r = r_dquote \/ r = r_quote \/ r = r_tick \/ digit r = true \/ r = r_macron.

  (* [written t w rest]: w is a way to write the token t when rest follows *)
  Inductive written : token -> text -> text -> Prop :=
  | w_chars s rest : hd 0 rest <> r_quote ->
      written (Tok Chars s) (r_quote :: doubled s ++ [r_quote]) rest
  | w_double s b rest : escaped b -> s_unquote C (r_dquote :: b ++ [r_dquote]) = Some s ->
      written (Tok String s) (r_dquote :: b ++ [r_dquote]) rest
  | w_tick s rest : Forall (fun r => tick_end C r = false) s ->
      (rest = [] \/ tick_end C (hd 0 rest) = true) ->
      written (Tok String s) (r_tick :: s) rest
  | w_number r w rest : digit r = true \/ r = r_macron \/ (r = r_dot /\ digit (hd 0 (w ++ rest)) = true) ->
      Forall (fun r => number_rune r = true) w -> number_rune (hd 0 rest) = false ->
      written (Tok Number (r :: w)) (r :: w) rest
  | w_symbol r t rest : s_symbols C r = Some t -> ~ starts_special r ->
      (r = r_dot -> digit (hd 0 rest) = false) ->
      written (Tok Symbol t) [r] rest
  | w_name r w rest : AllowedInVarname U r true = true -> s_symbols C r = None -> 
      name_tail false w ->
      (rest = [] \/ (AllowedInVarname U (hd 0 rest) false = false /\ (hd 0 rest = r_arrow -> has_arrow w = true))) ->
      written (Tok Identifier (r :: w)) (r :: w) rest
  | w_punct r ty rest : punctuation r = Some ty -> s_symbols C r = None ->
      written (Tok ty [r]) [r] rest.

  (* [reads line toks]: the tokens of a line, up to its end or to a comment *)
  Inductive reads : text -> list token -> Prop :=
  | reads_end : reads [] []
  | reads_comment s : s_symbols C r_lamp = None -> reads (r_lamp :: s) []
  | reads_blank b s l : blank b = true -> s_symbols C b = None -> reads s l -> reads (b :: s) l
  | reads_token t w s l : written t w s -> reads s l -> reads (w ++ s) (t :: l).

  (* a set of symbols that does not take the runes with another meaning *)
  Definition proper_symbols : Prop :=
    forall r, s_symbols C r <> None -> blank r = false /\ r <> r_lamp.
End Spec.

(* [spaced ws line]: the line consists of the given words, separated by blanks *)
Inductive spaced : list text -> text -> Prop :=
| sp_end bs : Forall (fun b => blank b = true) bs -> spaced [] bs
| sp_comment bs s : Forall (fun b => blank b = true) bs -> spaced [] (bs ++ r_lamp :: s)
| sp_word bs w bs' ws line : Forall (fun b => blank b = true) bs -> Forall (fun b => blank b = true) bs' ->
    spaced ws line -> (bs' <> [] \/ line = []) -> spaced (w :: ws) (bs ++ w ++ bs' ++ line).
