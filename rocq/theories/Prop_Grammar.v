(* Prop_Grammar.v -- the properties of the grammar: C90. *)
From Coq Require Import String List Bool ZArith Lia.
From Verif Require Import Base M_Scan S_Scan P_Scan M_Syntax M_Parse S_Parse S_Grammar P_Parse P_Lines P_Sentence P_Sentence2 P_Sentence3 P_Grammar P_Grammar2 Prop_Parse.
Import ListNotations.
Open Scope Z_scope.
Open Scope list_scope.

Lemma next_part : forall l b lv, lev [LeftBrace] [RightBrace] l = - lv ->
  (forall a c, l = a ++ c -> 0 <= lv + lev [LeftBrace] [RightBrace] a) ->
  (forall a t c, l = a ++ t :: c -> M_Scan.tt t = Diamond -> 0 < lv + lev [LeftBrace] [RightBrace] a) ->
  nextStatement lv (l ++ b) = (let* r := nextStatement 0 b in Ok (l ++ fst r, snd r)).
Proof.
  induction l as [|t l IH]; intros b lv L P S.
  - cbn in L. replace lv with 0 by lia. cbn [app]. destruct (nextStatement 0 b) as [[x y]| |]; reflexivity.
  - cbn [app nextStatement].
    assert (EQ : (if teqb (M_Scan.tt t) LeftBrace then lv + 1 else if teqb (M_Scan.tt t) RightBrace then lv - 1 else lv) = lv + delta [LeftBrace] [RightBrace] t).
    { unfold delta. cbn [existsb]. rewrite !orb_false_r. destruct (teqb _ LeftBrace); [lia|]. destruct (teqb _ RightBrace); lia. }
    rewrite EQ. pose proof (P [t] l eq_refl) as P1. cbn [lev] in P1, L. destruct (lv + delta _ _ t <? 0) eqn:Q; [lia|].
    assert (X : ((lv + delta [LeftBrace] [RightBrace] t =? 0) && teqb (M_Scan.tt t) Diamond) = false).
    { apply andb_false_iff. destruct (teqb (M_Scan.tt t) Diamond) eqn:T; [left|right; reflexivity]. apply teqb_eq in T.
      specialize (S [] t l eq_refl T). cbn [lev] in S. rewrite (proj1 mode_dia) by (rewrite T; apply (proj2 (proj2 mode_dia))). lia. }
    rewrite X. rewrite IH; [destruct (nextStatement 0 b) as [[x y]| |]; reflexivity|lia| |].
    + intros a c ->. specialize (P (t :: a) c eq_refl). cbn [lev] in P. lia.
    + intros a x c -> T. specialize (S (t :: a) x c eq_refl T). cbn [lev] in S. lia.
Qed.
Lemma next_shape : forall l b, shape3 l -> nextStatement 0 (l ++ b) = (let* r := nextStatement 0 b in Ok (l ++ fst r, snd r)).
Proof.
  intros l b [NE _ _ DI]. destruct (lev_nested Diamond _ _ mode_dia l NE) as [L P]. apply next_part; [lia|exact P|exact DI].
Qed.

(* ---------- C90: statements are read from right to left ---------- *)
(* The parser returns the expression that the grammar of S_Grammar.v gives to the tokens:
   functions apply to all that is right of them, operators bind to all that is left of them
   within a word, sequences of functions are trains. *)
Theorem C90_statement : forall D (G : grammar D) toks p, phrase G toks p ->
  exists i, parse_statement G toks = Ok (Some i) /\ ie i = result p.
Proof. intros D G toks p H. eexists. split; [apply phrase_parsed; exact H|apply statement_item_result]. Qed.
Theorem C90_program : forall D (G : grammar D) toks es, program G toks es -> parse G toks = Ok es.
Proof.
  intros D G toks es H. destruct (grammar_shape G) as (SR & SP & _).
  assert (RD : forall toks e, reading G toks e -> (let* i := parse_statement G toks in Ok (option_map (@ie D) i)) = Ok e).
  { intros l e [|l' p PH]; [reflexivity|]. rewrite (phrase_parsed _ _ _ PH). cbn [obind option_map]. rewrite statement_item_result. reflexivity. }
  assert (K : forall n, (length toks < n)%nat -> parseProgram G n toks = Ok es /\ es <> []).
  { induction H as [toks p PH|toks e d R T|toks e d rest es R T PR IH]; intros n L; (destruct n as [|n]; [lia|]); split; try discriminate.
    - destruct (SP _ _ PH) as ([SH _] & _ & NE). pose proof (next_shape toks [] SH) as NX. rewrite app_nil_r in NX. cbn [nextStatement obind fst snd] in NX. rewrite app_nil_r in NX.
      cbn [parseProgram]. destruct toks as [|t toks]; [congruence|]. rewrite NX. cbn [obind fst snd].
      pose proof (RD _ _ (rd_value _ _ _ PH)) as RE. destruct (parse_statement G (t :: toks)) as [i| |]; try discriminate. cbn [obind] in RE |- *.
      destruct n as [|n]; [cbn in L; lia|]. cbn [parseProgram obind]. injection RE as ->. reflexivity.
    - destruct (SR _ _ R) as ([SH _] & _). pose proof (next_shape toks [d] SH) as NX.
      assert (ND : nextStatement 0 [d] = Ok ([], [])) by (cbn [nextStatement]; rewrite T; reflexivity).
      rewrite ND in NX. cbn [obind fst snd] in NX. rewrite app_nil_r in NX. cbn [parseProgram].
      destruct (toks ++ [d]) as [|z zs] eqn:Z; [destruct toks; discriminate|]. rewrite NX. cbn [obind fst snd].
      pose proof (RD _ _ R) as RE. destruct (parse_statement G toks) as [i| |]; try discriminate. cbn [obind] in RE |- *.
      destruct n as [|n]; [apply (f_equal (@length token)) in Z; rewrite app_length in Z; cbn in Z, L; lia|]. cbn [parseProgram obind]. injection RE as ->. reflexivity.
    - destruct (SR _ _ R) as ([SH _] & _). pose proof (next_shape toks (d :: rest) SH) as NX.
      assert (ND : nextStatement 0 (d :: rest) = Ok ([], rest)) by (cbn [nextStatement]; rewrite T; reflexivity).
      rewrite ND in NX. cbn [obind fst snd] in NX. rewrite app_nil_r in NX. cbn [parseProgram].
      destruct (toks ++ d :: rest) as [|z zs] eqn:Z; [destruct toks; discriminate|]. rewrite NX. cbn [obind fst snd].
      pose proof (RD _ _ R) as RE. destruct (parse_statement G toks) as [i| |]; try discriminate. cbn [obind] in RE |- *. injection RE as ->.
      apply (f_equal (@length token)) in Z. rewrite app_length in Z. cbn in Z. cbn in L. destruct (IH n) as [-> _]; [lia|]. reflexivity. }
  unfold parse. destruct (K (Datatypes.S (length toks)) ltac:(lia)) as [-> NE]. cbn [obind]. destruct es; [congruence|reflexivity].
Qed.
(* the grammar gives one meaning only *)
Theorem C90_unambiguous : forall D (G : grammar D) toks es fs, program G toks es -> program G toks fs -> es = fs.
Proof. intros D G toks es fs H K. apply C90_program in H, K. rewrite H in K. injection K as ->. reflexivity. Qed.
Print Assumptions C90_statement.
Print Assumptions C90_program.

(* ---------- examples ---------- *)
(* the functions + - ×, the operators / . ∘ and the assignment *)
Definition apl_scanner : scanner :=
  mkScanner (s_unicode demo_scanner) (fun r => if in_runes r [43; 45; 215; 47; 46; 8728; 8592] then Some [r] else None) (fun _ => None) (fun t => Some t).
Definition apl : grammar text :=
  mkGrammar (fun s => existsb (String.eqb s) ["+"; "-"; "×"; "⌷"]%string)
            (fun s => if existsb (String.eqb s) ["/"; "←"]%string then Some false else if existsb (String.eqb s) ["."; "∘"]%string then Some true else None)
            (s_unicode demo_scanner) (fun t => Some t) (fun t => t) [].
(* the letters x, j and a stand for ×, ∘ and ← *)
Definition symbols (s : string) : text := map (fun r => if r =? 120 then 215 else if r =? 106 then 8728 else if r =? 97 then 8592 else r) (chars s).
Definition tokens (s : string) : list token := match Scan apl_scanner (symbols s) with Ok l => l | _ => [] end.
Definition show (s : string) : outcome (list (option (expr text))) := ParseLines apl apl_scanner (symbols s).

Ltac apart_tac := intros ?a ?t ?u ?b ?E1 ?E2 [?H1 ?H2]; injection E2 as <- _;
  repeat (match goal with E : _ = ?l ++ [_] |- _ => destruct l; cbn in E; [first [discriminate E|injection E as <-]|injection E as _ E; try discriminate E] end);
  try match goal with E : [] = ?l ++ [_] |- _ => destruct l; discriminate E end;
  first [destruct H2 as [X|[X|[X|[X _]]]]; discriminate X | destruct H1 as [X|[X|[X|[X _]]]]; discriminate X].
Ltac tame_tac := intros ?a ?m ?b E ?H; inversion H; subst;
  repeat match goal with E : _ = ?l ++ _ |- _ => destruct l; cbn in E; [first [discriminate E|injection E; intros; subst; discriminate]|first [discriminate E|injection E as _ E]] end; try discriminate.
Definition example_pieces : list (piece text) :=
  [N (EApp (FPrim "⌷") (Some (EIdx [num "1"; num "2"])) (EVar (Num "A")) false); V (FPrim "+"); Dop "."; V (FPrim "-");
   N (EArray [num "3"; num "4"]); V (FPrim "-"); Mop "/";
   V (FLam [Guard (Some (EVar (Num "A"))) (Some (EApp (FPrim "+") (Some (num "1")) (num "2") false))]); N (num "5")].
Definition example_value : expr text :=
  EApp (FDer "." (Some (EFn (FPrim "+"))) (Some (EFn (FPrim "-"))))
    (Some (EApp (FPrim "⌷") (Some (EIdx [num "1"; num "2"])) (EVar (Num "A")) false))
    (EApp (FDer "/" (Some (EFn (FPrim "-"))) None) (Some (EArray [num "3"; num "4"]))
      (EApp (FLam [Guard (Some (EVar (Num "A"))) (Some (EApp (FPrim "+") (Some (num "1")) (num "2") false))]) None (num "5") false) false) false.
Lemma one_atom : forall s, base apl [Tok Number (chars s)] (N (num s)).
Proof. intros s. apply (b_array apl _ [num s]); [discriminate|]. apply (as_cons apl _ [num s] [] []); [apply a_number; reflexivity|constructor|discriminate]. Qed.
Lemma one_noun : forall toks e, toks <> [] -> base apl toks (N e) -> phrase apl toks (N e).
Proof.
  intros toks e NE B. apply (ph apl toks [N e] (N e)).
  - rewrite <- (app_nil_r toks). apply (cs_cons apl toks [N e] [] []); [apply ch_base; exact B|constructor|]. intros a t u b _ E. discriminate.
  - eapply s_value; [|constructor]. apply (words_cons [N e] (N e) [] []); [constructor; reflexivity|constructor].
  - intros a m b E H. apply (f_equal (@length _)) in E. rewrite !app_length in E. inversion H; subst; cbn in E; lia.
  - intros (a & t & NA & E). destruct a as [|y [|? ?]]; [congruence|discriminate..].
Qed.
(* A[1;2]+.-(3 4)-/{A:1+2}5 *)
Example C90_example : program apl (tokens "A[1;2]+.-(3 4)-/{A:1+2}5") [Some example_value] /\
  show "A[1;2]+.-(3 4)-/{A:1+2}5" = Ok [Some example_value].
Proof.
  split; [|vm_compute; reflexivity].
  change (program apl (tokens "A[1;2]+.-(3 4)-/{A:1+2}5") [Some (result (N example_value))]). apply pg_last.
  set (toks := tokens _). vm_compute in toks. subst toks.
  assert (A : base apl [Tok Identifier [65]] (N (EVar (Num "A")))).
  { apply (b_array apl _ [EVar (Num "A")]); [discriminate|]. apply (as_cons apl _ [EVar (Num "A")] [] []); [apply (a_var apl (Tok Identifier [65])); reflexivity|constructor|discriminate]. }
  assert (R1 : reading apl [Tok Number [49]] (Some (num "1"))) by (apply (rd_value apl _ (N (num "1"))), one_noun; [discriminate|apply (one_atom "1")]).
  assert (R2 : reading apl [Tok Number [50]] (Some (num "2"))) by (apply (rd_value apl _ (N (num "2"))), one_noun; [discriminate|apply (one_atom "2")]).
  assert (S12 : reading apl [Tok Number [49]; Tok Symbol [43]; Tok Number [50]] (Some (EApp (FPrim "+") (Some (num "1")) (num "2") false))).
  { apply (rd_value apl _ (N (EApp (FPrim "+") (Some (num "1")) (num "2") false))). eapply (ph apl _ [N (num "1"); V (FPrim "+"); N (num "2")]).
    - refine (cs_cons apl [Tok Number [49]] [_] _ _ (ch_base apl _ _ _ (one_atom "1")) _ _); [|apart_tac].
      refine (cs_cons apl [Tok Symbol [43]] [_] _ _ (ch_base apl _ _ _ (b_prim apl (Tok Symbol [43]) eq_refl eq_refl)) _ _); [|apart_tac].
      refine (cs_cons apl [Tok Number [50]] [_] [] [] (ch_base apl _ _ _ (one_atom "2")) (cs_nil apl) _). intros a t u b _ E; discriminate.
    - eapply s_value; [|apply v_dyadic, v_noun].
      eapply (words_cons [_] _ _ _); [apply word_operand; reflexivity|]. eapply (words_cons [_] _ _ _); [apply word_operand; reflexivity|].
      eapply (words_cons [_] _ [] []); [apply word_operand; reflexivity|apply words_nil].
    - tame_tac.
    - intros (a & t & _ & E). destruct a as [|? [|? [|? a]]]; try discriminate. destruct a; discriminate. }
  apply (ph apl _ example_pieces).
  - refine (cs_cons apl [_; _; _; _; _; _] [_] _ _ (ch_index apl _ _ _ [_; _; _; _; _] _ A _) _ _); [| |apart_tac].
    { refine (br_some apl (Tok LeftBrack [91]) [_; Tok Semicolon [59]; _] (Tok RightBrack [93]) [[_]; [_]] [Some (num "1"); Some (num "2")] eq_refl eq_refl _ _ _); [discriminate| |].
      - refine (sep_more Semicolon [_] (Tok Semicolon [59]) [[_]] [_] eq_refl _). constructor.
      - repeat constructor; assumption. }
    refine (cs_cons apl [_] [_] _ _ (ch_base apl _ _ _ (b_prim apl (Tok Symbol [43]) eq_refl eq_refl)) _ _); [|apart_tac].
    refine (cs_cons apl [_] [_] _ _ (ch_operator apl _ _ _ (o_dyadic apl _ (Tok Symbol [46]) eq_refl eq_refl eq_refl _)) _ _); [discriminate| |apart_tac].
    refine (cs_cons apl [_] [_] _ _ (ch_base apl _ _ _ (b_prim apl (Tok Symbol [45]) eq_refl eq_refl)) _ _); [|apart_tac].
    refine (cs_cons apl [_; _; _; _] [_] _ _ (ch_base apl _ _ _ (b_paren apl (Tok LeftParen [40]) [Tok Number [51]; Tok Number [52]] (Tok RightParen [41]) (N (EArray [num "3"; num "4"])) eq_refl eq_refl _ eq_refl)) _ _); [| |apart_tac].
    { apply one_noun; [discriminate|]. refine (b_array apl _ [num "3"; num "4"] _ _); [discriminate|].
      refine (as_cons apl _ [_] [_] [_] (a_number apl (Tok Number [51]) _ eq_refl eq_refl) (as_cons apl _ [_] [] [] (a_number apl (Tok Number [52]) _ eq_refl eq_refl) (as_nil apl) _) _); discriminate. }
    refine (cs_cons apl [_] [_] _ _ (ch_base apl _ _ _ (b_prim apl (Tok Symbol [45]) eq_refl eq_refl)) _ _); [|apart_tac].
    refine (cs_cons apl [_] [_] _ _ (ch_operator apl _ _ _ (o_monadic apl _ (Tok Symbol [47]) eq_refl eq_refl eq_refl _)) _ _); [discriminate| |apart_tac].
    refine (cs_cons apl [_; _; _; _; _; _; _] [_] _ _ (ch_base apl _ _ _ (b_lambda apl (Tok LeftBrace [123]) [_; Tok Colon [58]; _; _; _] (Tok RightBrace [125]) [[_; _; _; _; _]] [_] eq_refl eq_refl _ (sep_one _ _) _)) _ _); [discriminate| | |apart_tac].
    { apply bd_last; [|discriminate]. refine (gd_guard apl _ [_] [_; _; _] (Some (EVar (Num "A"))) _ (sep_more Colon [_] (Tok Colon [58]) [_] _ eq_refl (sep_one _ _)) _ S12).
      refine (rd_value apl _ (N (EVar (Num "A"))) _). apply one_noun; [discriminate|exact A]. }
    refine (cs_cons apl [_] [_] [] [] (ch_base apl _ _ _ (one_atom "5")) (cs_nil apl) _). intros a t u b _ E; discriminate.
  - eapply s_value; [|apply v_dyadic, v_dyadic, v_monadic, v_noun].
    eapply (words_cons [_] _ _ _); [apply word_operand; reflexivity|].
    eapply (words_cons [_; _; _] _ _ _); [eapply (word_dop [_] (V (FPrim "+")) "." (V (FPrim "-"))); [apply word_operand; reflexivity|reflexivity]|].
    eapply (words_cons [_] _ _ _); [apply word_operand; reflexivity|].
    eapply (words_cons [_; _] _ _ _); [eapply (word_mop [_] (V (FPrim "-"))); apply word_operand; reflexivity|].
    eapply (words_cons [_] _ _ _); [apply word_operand; reflexivity|].
    eapply (words_cons [_] _ [] []); [apply word_operand; reflexivity|apply words_nil].
  - tame_tac.
  - intros (a & t & _ & E). unfold example_pieces in E. repeat (destruct a as [|? a]; cbn in E; [discriminate E|first [discriminate E|injection E as _ E]]).
Qed.
(* What the grammar excludes, the parser does not read as APL does:
   2-+/×.-3       three operators in two adjacent words: an error
   1+///2         three monadic operators: / becomes an operand
   f(g h)         the train in parentheses is not kept apart
   f←(+-×)        and is not assigned
   'bc' 1         is an error, but 1 'bc' is not
   A∘(+.×)        the jot before a parenthesised inner product is a function
   (A[1;2];3;)    the semicolon in the brackets splits the list: an error *)
Example C90_excluded :
  show "2-+/x.-3" = Err /\
  show "1+///2" = Ok [Some (EApp (FDer "/" (Some (EFn (FPrim "+"))) None) (Some (num "1"))
                        (EApp (FDer "/" (Some (EFn (FDer "/" None None))) None) None (num "2") false) false)] /\
  show "f(g h)" = Ok [Some (EFn (FTrain [EFn (FVar (Fun "f")); EFn (FVar (Fun "g")); EFn (FVar (Fun "h"))]))] /\
  show "fa(+-x)" = Ok [Some (EFn (FTrain [EFn (FDer "←" (Some (EFn (FVar (Fun "f")))) None); EFn (FPrim "+"); EFn (FPrim "-"); EFn (FPrim "×")]))] /\
  show "'bc' 1" = Err /\ show "1 'bc'" = Ok [Some (EArray [num "1"; num "b"; num "c"])] /\
  show "Aj(+.x)" = Ok [Some (EFn (FTrain [EVar (Num "A"); EFn (FPrim "∘"); EFn (FDer "." (Some (EFn (FPrim "+"))) (Some (EFn (FPrim "×"))))]))] /\
  show "(A[1;2];3;)" = Err.
Proof. repeat split; vm_compute; reflexivity. Qed.
