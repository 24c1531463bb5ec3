(* Prop_Scan.v -- the properties of the tokenizer: C67, C88, C89. *)
From Verif Require Import Base M_Scan S_Scan P_Scan.
From Coq Require Import ZArith List Bool.
Import ListNotations.
Open Scope Z_scope.

(* ---------- C67: quoted strings round-trip ---------- *)
Theorem C67_quoted : forall C s,
  Scan C ([r_quote] ++ doubled s ++ [r_quote]) = Ok [Tok Chars s].
Proof.
  intros C s. unfold Scan.
  assert (R : reads C ((r_quote :: doubled s ++ [r_quote]) ++ []) [Tok Chars s]).
  { apply reads_token; [|constructor]. constructor. discriminate. }
  rewrite app_nil_r in R. apply scanTokens_reads in R. cbn [app] in *. rewrite R. reflexivity.
Qed.
(* inside of a line, with anything behind it *)
Theorem C67_in_line : forall C s rest l,
  hd 0 rest <> r_quote ->
  scanTokens C rest = Ok l -> scanTokens C ([r_quote] ++ doubled s ++ [r_quote] ++ rest) = Ok (Tok Chars s :: l).
Proof.
  intros C s rest l H R. apply scanTokens_reads in R. apply scanTokens_reads.
  assert (W : written C (Tok Chars s) (r_quote :: doubled s ++ [r_quote]) rest) by (constructor; exact H).
  pose proof (reads_token C _ _ _ _ W R) as X. cbn [app] in *. rewrite <- app_assoc in X. exact X.
Qed.
(* the text behind an opening quote is not a string exactly if it has no closing quote:
   if all its quotes are doubled *)
Theorem C67_unterminated : forall C t,
  (exists s, t = doubled s) <-> ReadString C (r_quote :: t) = Err.
Proof.
  intros C t. change (ReadString C (r_quote :: t)) with (readQuote t). split.
  - intros [s ->]. apply readQuote_none.
  - intros E. destruct (readQuote_inv _ t (le_n _)) as [(w & H & _)|(w & rest & _ & _ & H)]; [exists w; exact H|congruence].
Qed.
Theorem C67_unterminated_line : forall C s, Scan C (r_quote :: doubled s) = Err.
Proof.
  intros C s. unfold Scan, scanTokens. cbn [length scanLoop nextToken].
  change (in_runes r_quote [r_dquote; r_quote; r_tick]) with true. cbn iota. unfold scanString.
  assert (E : ReadString C (r_quote :: doubled s) = Err) by (apply C67_unterminated; exists s; reflexivity).
  rewrite E. reflexivity.
Qed.
Print Assumptions C67_quoted.
Print Assumptions C67_unterminated.

Definition ascii_scanner (symbols : list Z) : scanner :=
  mkScanner (mkUnicode (fun _ => false) (fun _ => false) (fun _ => false) (fun _ => false))
            (fun r => if in_runes r symbols then Some [r] else None) (fun _ => None) (fun t => Some t).
(* 'it''s' is it's *)
Example C67_example : Scan (ascii_scanner [43]) [39; 105; 116; 39; 39; 115; 39; 43] = Ok [Tok Chars [105; 116; 39; 115]; Tok Symbol [43]]
  /\ Scan (ascii_scanner [43]) [39; 105; 39; 39] = Err.
Proof. split; reflexivity. Qed.

(* ---------- C88: the tokens do not depend on the spacing ---------- *)
Theorem C88_spacing : forall C ws line toks, proper_symbols C ->
  Forall2 (fun t w => written C t w [32]) toks ws -> spaced ws line -> scanTokens C line = Ok toks.
Proof. intros C ws line toks P F S. apply scanTokens_reads. eapply spaced_reads; eassumption. Qed.
(* two spacings of the same words *)
Theorem C88_respace : forall C ws line1 line2 toks, proper_symbols C ->
  Forall2 (fun t w => written C t w [32]) toks ws -> spaced ws line1 -> spaced ws line2 ->
  Scan C line1 = Scan C line2.
Proof.
  intros C ws line1 line2 toks P F S1 S2. unfold Scan.
  rewrite (C88_spacing _ _ _ _ P F S1), (C88_spacing _ _ _ _ P F S2). reflexivity.
Qed.
Print Assumptions C88_spacing.
(* the words  A + 'b' 12  with one blank each, and with more blanks and a comment *)
Example C88_example :
  let C := ascii_scanner [43] in
  let ws := [[65]; [43]; [39; 98; 39]; [49; 50]] in
  proper_symbols C /\
  Forall2 (fun t w => written C t w [32]) [Tok Identifier [65]; Tok Symbol [43]; Tok Chars [98]; Tok Number [49; 50]] ws /\
  spaced ws [65; 32; 43; 32; 39; 98; 39; 32; 49; 50] /\
  spaced ws [9; 65; 32; 32; 43; 32; 39; 98; 39; 9; 49; 50; 32; r_lamp; 39].
Proof.
  cbn zeta. split; [|split; [|split]].
  - intros r H. cbn in H. destruct (r =? 43) eqn:E; [|cbn in H; congruence]. apply Z.eqb_eq in E. subst r. split; [reflexivity|discriminate].
  - constructor; [|constructor; [|constructor; [|constructor; [|constructor]]]].
    + apply w_name; try reflexivity; [constructor|right; split; [reflexivity|discriminate]].
    + apply w_symbol; [reflexivity| |discriminate]. unfold starts_special. intros H. decompose [or] H; discriminate.
    + apply (w_chars _ [98] [32]). discriminate.
    + apply w_number; [left; reflexivity|repeat constructor|reflexivity].
  - apply (sp_word [] [65] [32] _ [43; 32; 39; 98; 39; 32; 49; 50]); [repeat constructor|repeat constructor| |left; discriminate].
      apply (sp_word [] [43] [32] _ [39; 98; 39; 32; 49; 50]); [repeat constructor|repeat constructor| |left; discriminate].
      apply (sp_word [] [39; 98; 39] [32] _ [49; 50]); [repeat constructor|repeat constructor| |left; discriminate].
      apply (sp_word [] [49; 50] [] _ []); [repeat constructor|repeat constructor|apply sp_end; constructor|right; reflexivity].
  - apply (sp_word [9] [65] [32; 32] _ [43; 32; 39; 98; 39; 9; 49; 50; 32; r_lamp; 39]); [repeat constructor|repeat constructor| |left; discriminate].
      apply (sp_word [] [43] [32] _ [39; 98; 39; 9; 49; 50; 32; r_lamp; 39]); [repeat constructor|repeat constructor| |left; discriminate].
      apply (sp_word [] [39; 98; 39] [9] _ [49; 50; 32; r_lamp; 39]); [repeat constructor|repeat constructor| |left; discriminate].
      apply (sp_word [] [49; 50] [32] _ [r_lamp; 39]); [repeat constructor|repeat constructor| |left; discriminate].
      apply (sp_comment [] [39]). constructor.
Qed.

(* ---------- C89: a line is read completely and in one way ---------- *)
Theorem C89_reads : forall C line toks, scanTokens C line = Ok toks <-> reads C line toks.
Proof. exact scanTokens_reads. Qed.
Theorem C89_total : forall C line, Scan C line <> Panic.
Proof.
  intros C line. unfold Scan. destruct (scanTokens C line) eqn:E; cbn; try discriminate.
  exfalso. exact (scanTokens_total C line E).
Qed.
Theorem C89_unique : forall C line t1 t2, reads C line t1 -> reads C line t2 -> t1 = t2.
Proof. intros C line t1 t2 H1 H2. apply scanTokens_reads in H1, H2. congruence. Qed.
Print Assumptions C89_reads.
Example C89_example : exists toks, reads (ascii_scanner [43]) [49; 43; 40; 46; 53; 41] toks /\ length toks = 5%nat.
Proof. eexists. split; [apply C89_reads; reflexivity|reflexivity]. Qed.
(* the characters that the vocabulary of tokens refers to, one by one *)
Theorem C89_characters : forall C r,
  (tick_end C r = true <-> IsSpace (s_unicode C) r = true \/ In r [96 (* ` *); 125 (* } *); 93 (* ] *); 41 (* ) *); 8900 (* ⋄ *); 35 (* # *); 59 (* ; *)]) /\
  (number_rune r = true <-> 48 <= r <= 57 \/ 97 <= r <= 122 \/ 65 <= r <= 90 \/ r = 46 (* . *) \/ r = 175 (* ¯ *)) /\
  (digit r = true <-> 48 <= r <= 57) /\
  (blank r = true <-> r = 32 \/ r = 9 \/ r = 13) /\
  (forall ty, punctuation r = Some ty <->
     In (r, ty) [(40, LeftParen); (41, RightParen); (91, LeftBrack); (93, RightBrack); (123, LeftBrace); (125, RightBrace); (59, Semicolon); (8900, Diamond); (8711, Self); (58, Colon)]) /\
  (AllowedInVarname (s_unicode C) r false = true <-> r = 95 (* _ *) \/ IsLetter (s_unicode C) r = true \/ IsNumber (s_unicode C) r = true) /\
  (AllowedInVarname (s_unicode C) r true = true <-> r = 95 \/ IsLetter (s_unicode C) r = true \/ In r [9109 (* ⎕ *); 9082 (* ⍺ *); 9077 (* ⍵ *)]).
Proof.
  intros C r. assert (I : forall l, in_runes r l = true <-> In r l).
  { intros l. unfold in_runes. rewrite existsb_exists. split; [intros (x & H & E); apply Z.eqb_eq in E; subst; exact H|intros H; exists r; split; [exact H|apply Z.eqb_refl]]. }
  split; [|split; [|split; [|split; [|split; [|split]]]]].
  - unfold tick_end. rewrite orb_true_iff, I. reflexivity.
  - unfold number_rune, digit, rune_range. rewrite !orb_true_iff, !andb_true_iff, !Z.leb_le, !Z.eqb_eq. unfold r_dot, r_macron. tauto.
  - unfold digit, rune_range. rewrite andb_true_iff, !Z.leb_le. tauto.
  - unfold blank. rewrite I. cbn. intuition.
  - intros ty. unfold punctuation.
    repeat match goal with |- context [r =? ?c] => let E := fresh "E" in destruct (r =? c) eqn:E; [apply Z.eqb_eq in E; subst r; split;
      [intros H; injection H as <-; cbn; tauto|cbn; intros H; repeat (destruct H as [H|H]; [try discriminate; injection H as <-; reflexivity|]); contradiction]|apply Z.eqb_neq in E] end.
    split; [discriminate|]. cbn. intros H. repeat (destruct H as [H|H]; [exfalso; injection H as H _; unfold r_diamond, r_nabla in *; congruence|]). contradiction.
  - unfold AllowedInVarname. cbn [andb negb]. destruct (IsNumber _ r); [tauto|]. rewrite orb_true_iff, Z.eqb_eq. unfold r_underscore. intuition discriminate.
  - unfold AllowedInVarname. cbn [andb negb]. destruct (in_runes r _) eqn:E.
    + apply I in E. tauto.
    + assert (~ In r [r_quad; r_alpha; r_omega]) by (rewrite <- I; congruence). rewrite orb_true_iff, Z.eqb_eq. unfold r_underscore, r_quad, r_alpha, r_omega in *. tauto.
Qed.
Print Assumptions C89_characters.
