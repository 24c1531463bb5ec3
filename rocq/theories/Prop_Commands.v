(* Prop_Commands.v -- C133: commands. *)
From Coq Require Import String List Bool ZArith Lia.
From Verif Require Import Base M_Scan S_Scan P_Scan M_Syntax M_Parse S_Parse S_Grammar P_Parse P_Lines P_Sentence P_Sentence2 P_Sentence3 P_Grammar P_Grammar2 Prop_Parse Prop_Grammar M_Commands.
Import ListNotations.
Open Scope Z_scope.
Open Scope list_scope.

(* ---------- when a line is a command ---------- *)
Definition slash (t : token) : Prop := t = Tok Symbol [47] \/ t = Tok Symbol [92].
(* the tokens start with a slash or a backslash and the name of a command *)
Definition command_line (C : scanner) (l : list token) (c : text) (rw : list token -> list token) (rest : list token) : Prop :=
  exists t, slash t /\ l = t :: Tok Identifier c :: rest /\ s_commands C c = Some rw.
(* the meaning of a line of tokens: the last command is applied first *)
Inductive rewritten (C : scanner) : list token -> list token -> Prop :=
| rw_plain l : (forall c rw rest, ~ command_line C l c rw rest) -> rewritten C l l
| rw_command l c rw rest l' : command_line C l c rw rest -> rewritten C rest l' -> rewritten C l (rw l').
Lemma applyCmds_rewritten C : forall toks l, applyCmds C toks = l <-> rewritten C toks l.
Proof.
  assert (K : forall n toks, (length toks <= n)%nat -> forall l, applyCmds C toks = l <-> rewritten C toks l).
  { induction n as [|n IH]; intros toks L l0.
    - destruct toks; [|cbn in L; lia]. split; [intros <-; apply rw_plain; intros c rw rest (t & _ & E & _); discriminate E|].
      intros H. inversion H as [|? c rw rest l' (t & _ & E & _)]; subst; [reflexivity|discriminate E].
    - assert (Dec : (exists c rw rest, command_line C toks c rw rest) \/ forall c rw rest, ~ command_line C toks c rw rest).
      { destruct toks as [|[ty s] [|[ty2 c] rest]]; try (right; intros c0 rw r0 (t & _ & E & _); discriminate E).
        destruct ty2; try (right; intros c0 rw r0 (t & _ & E & _); discriminate E).
        destruct (s_commands C c) as [rw|] eqn:Ec; [|right; intros c0 rw r0 (t & _ & E & X); injection E as _ <- <-; congruence].
        destruct ty; try (right; intros c0 rw0 r0 (t & [->| ->] & E & _); discriminate E).
        destruct (list_eq_dec Z.eq_dec s [47]) as [->|N1]; [left; exists c, rw, rest; exists (Tok Symbol [47]); split; [left; reflexivity|split; [reflexivity|exact Ec]]|].
        destruct (list_eq_dec Z.eq_dec s [92]) as [->|N2]; [left; exists c, rw, rest; exists (Tok Symbol [92]); split; [right; reflexivity|split; [reflexivity|exact Ec]]|].
        right. intros c0 rw0 r0 (t & [->| ->] & E & _); injection E; intros; congruence. }
      assert (CE : forall c rw rest, command_line C toks c rw rest -> applyCmds C toks = rw (applyCmds C rest)).
      { intros c rw rest (t & [->| ->] & -> & E); cbn [applyCmds]; change (in_runes (nth 0 [47] 0) [r_slash; r_bslash] && (length [47] =? 1)%nat) with true;
          change (in_runes (nth 0 [92] 0) [r_slash; r_bslash] && (length [92] =? 1)%nat) with true; rewrite E; reflexivity. }
      assert (PE : (forall c rw rest, ~ command_line C toks c rw rest) -> applyCmds C toks = toks).
      { intros N. destruct toks as [|[ty s] [|[ty2 c] rest]]; [reflexivity|destruct ty; reflexivity|]. destruct ty; try reflexivity. destruct ty2; try reflexivity. cbn [applyCmds].
        destruct (in_runes (nth 0 s 0) [r_slash; r_bslash] && (length s =? 1)%nat) eqn:B; [|reflexivity]. destruct (s_commands C c) as [rw|] eqn:E; [|reflexivity].
        exfalso. apply (N c rw rest). exists (Tok Symbol s). split; [|split; [reflexivity|exact E]].
        apply andb_true_iff in B. destruct B as [B1 B2]. destruct s as [|r [|]]; try discriminate B2. unfold in_runes in B1. cbn [nth existsb] in B1.
        destruct (r =? r_slash) eqn:R1; [apply Z.eqb_eq in R1; left; subst r; reflexivity|]. destruct (r =? r_bslash) eqn:R2; [apply Z.eqb_eq in R2; right; subst r; reflexivity|].
        discriminate B1. }
      destruct Dec as [(c & rw & rest & H)|H].
      + assert (LR : (length rest <= n)%nat) by (destruct H as (t & _ & -> & _); cbn in L; lia). rewrite (CE _ _ _ H). split.
        * intros <-. eapply rw_command; [exact H|]. apply (IH rest LR). reflexivity.
        * intros R. inversion R as [? N|? c2 rw2 rest2 l' H2 R2]; subst; [destruct (N _ _ _ H)|].
          destruct H as (t & _ & E & Ec). destruct H2 as (t2 & _ & E2 & Ec2). rewrite E in E2. injection E2 as -> <- <-. rewrite Ec in Ec2. injection Ec2 as <-.
          f_equal. apply (IH rest LR). exact R2.
      + rewrite (PE H). split; [intros <-; apply rw_plain; exact H|]. intros R. inversion R as [|? c2 rw2 rest2 l' H2 R2]; subst; [reflexivity|destruct (H _ _ _ H2)]. }
  intros toks. apply (K (length toks)). lia.
Qed.
Theorem C133_rewritten C line l : Scan C line = Ok l <-> exists toks, scanTokens C line = Ok toks /\ rewritten C toks l.
Proof.
  unfold Scan. split.
  - destruct (scanTokens C line) as [toks| |]; cbn [obind]; try discriminate. intros E. injection E as E. exists toks. split; [reflexivity|]. apply applyCmds_rewritten. exact E.
  - intros (toks & -> & R). cbn [obind]. f_equal. apply applyCmds_rewritten. exact R.
Qed.
Print Assumptions C133_rewritten.

(* ---------- what the commands mean ---------- *)
Section Meaning.
  Context {D : Type} (G : grammar D).
  Definition verb_name (n : text) : Prop := isVarname (name_of (g_unicode G) n) = (true, true).
  Definition fn (n : text) : func D := FVar (name_of (g_unicode G) n).
  Lemma not_array (n : text) : verb_name n -> forall b, apart G [Tok Identifier n] b.
  Proof.
    intros V b a' t u b' E _ [H _]. destruct a' as [|x a']; [|destruct a'; discriminate E]. injection E as <-.
    destruct H as [H|[H|[H|[_ H]]]]; try discriminate H. unfold verb_name in V. unfold nameof in H. cbn in H. rewrite V in H. discriminate H.
  Qed.
  Lemma tame_cons (f : func D) ps : tame ps -> tame (V f :: ps).
  Proof.
    intros T a m b E H. destruct a as [|x a]; [|injection E as _ E; exact (T a m b E H)].
    destruct m as [|y m]; [inversion H|]. injection E as <- _. inversion H.
  Qed.
  (* a function before a sentence with a value *)
  Lemma phrase_apply n toks e : verb_name n -> phrase G toks (N e) -> phrase G (Tok Identifier n :: toks) (N (EApp (fn n) None e false)).
  Proof.
    intros Vn H. inversion H as [? ps ? CH SE TA NT]; subst. apply (ph G _ (V (fn n) :: ps)).
    - apply (cs_cons G [Tok Identifier n] [V (fn n)] toks ps); [apply ch_base; apply (b_name G (Tok Identifier n)); [reflexivity|exact Vn]|exact CH|apply not_array; exact Vn].
    - inversion SE as [? ws ? W VO| | |]; subst. eapply s_value; [|apply v_monadic; exact VO].
      apply (words_cons [V (fn n)] (V (fn n)) ps ws); [constructor; reflexivity|exact W].
    - apply tame_cons. exact TA.
    - intros (a & t & NE & E). destruct a as [|x a]; [congruence|]. injection E as <- E. destruct a as [|y a].
      + cbn [app] in E. subst ps. inversion SE as [? ws ? W VO| | |]; subst. inversion W as [|w1 w b ws' Wd W' E1 E2]; subst.
        destruct w1 as [|z w1]; [inversion Wd; subst; [destruct l; discriminate|destruct l; discriminate]|].
        injection E1 as -> E1. apply app_eq_nil in E1. destruct E1 as [-> ->]. inversion W'; subst; [|match goal with X : _ ++ _ = [] |- _ => apply app_eq_nil in X; destruct X; subst end; match goal with X : word [] _ |- _ => inversion X; subst; match goal with Y : ?l ++ _ = [] |- _ => destruct l; discriminate Y end end].
        inversion Wd as [x Ox E3 E4|l w' op Wl E3 E4|l w' op x Wl Ox E3 E4]; subst; [inversion VO; subst; match goal with X : value_of [] _ |- _ => inversion X end|destruct l as [|? [|]]; discriminate E3|destruct l as [|? [|]]; discriminate E3].
      + apply NT. exists (y :: a), t. split; [discriminate|exact E].
  Qed.
  (* one noun: a number, a string or a variable *)
  Lemma phrase_atom t e : atom G t [e] -> phrase G [t] (N e).
  Proof.
    intros A. apply (ph G [t] [N e] (N e)).
    - apply (cs_cons G [t] [N e] [] []); [apply ch_base; apply (b_array G [t] [e]); [discriminate|apply (as_cons G t [e] [] []); [exact A|constructor|intros; right; reflexivity]]|constructor|]. intros a u v b _ E. discriminate.
    - eapply s_value; [|constructor]. apply (words_cons [N e] (N e) [] []); [constructor; reflexivity|constructor].
    - intros a m b E H. apply (f_equal (@length _)) in E. rewrite !app_length in E. inversion H; subst; cbn in E; lia.
    - intros (a & u & NA & E). destruct a as [|y [|? ?]]; [congruence|discriminate..].
  Qed.
  (* a dyadic call with a noun on each side *)
  Lemma phrase_dyadic n t u a b : verb_name n -> atom G t [a] -> atom G u [b] -> phrase G [t; Tok Identifier n; u] (N (EApp (fn n) (Some a) b false)).
  Proof.
    intros Vn A B. apply (ph G _ [N a; V (fn n); N b]).
    - apply (cs_cons G [t] [N a] [Tok Identifier n; u] [V (fn n); N b]); [apply ch_base; apply (b_array G [t] [a]); [discriminate|apply (as_cons G t [a] [] []); [exact A|constructor|intros; right; reflexivity]]| |].
      + apply (cs_cons G [Tok Identifier n] [V (fn n)] [u] [N b]); [apply ch_base; apply (b_name G (Tok Identifier n)); [reflexivity|exact Vn]| |apply not_array; exact Vn].
        apply (cs_cons G [u] [N b] [] []); [apply ch_base; apply (b_array G [u] [b]); [discriminate|apply (as_cons G u [b] [] []); [exact B|constructor|intros; right; reflexivity]]|constructor|]. intros a' x y b' _ E; discriminate.
      + intros a' x y b' _ E [_ H]. injection E as <- _. destruct H as [H|[H|[H|[_ H]]]]; try discriminate H. unfold verb_name in Vn. unfold nameof in H. cbn in H. rewrite Vn in H. discriminate H.
    - eapply s_value; [|apply v_dyadic, v_noun].
      eapply (words_cons [_] _ _ _); [apply word_operand; reflexivity|]. eapply (words_cons [_] _ _ _); [apply word_operand; reflexivity|].
      eapply (words_cons [_] _ [] []); [apply word_operand; reflexivity|apply words_nil].
    - tame_tac.
    - intros (a' & x & _ & E). destruct a' as [|? [|? [|? a']]]; try discriminate. destruct a'; discriminate.
  Qed.
  Lemma one_statement toks e : phrase G toks (N e) -> parse G toks = Ok [Some e].
  Proof. intros H. apply C90_program. exact (pg_last G toks (N e) H). Qed.

  (* /p X, /cd X and /l X apply a function of the packages a and io to X, where X is any statement with
     a value; /q, /h, /cd and /m without an argument are calls with 0. *)
  Theorem C133_apply toks e : phrase G toks (N e) ->
    parse G (printCmd toks) = Ok [Some (EApp (fn (n_a 112)) None e false)]
    /\ parse G (cdCmd toks) = Ok [Some (EApp (fn n_cd) None e false)]
    /\ ((forall a b, toks <> [Tok M_Scan.String a; Tok M_Scan.String b]) -> parse G (lCmd toks) = Ok [Some (EApp (fn n_l) None e false)]).
  Proof.
    intros H. split; [|split].
    - apply one_statement, phrase_apply; [reflexivity|exact H].
    - assert (NE : toks <> []).
      { exact (proj2 (proj2 (proj1 (proj2 (grammar_shape G)) toks (N e) H))). }
      destruct toks as [|t toks]; [congruence|]. apply one_statement, phrase_apply; [reflexivity|exact H].
    - intros NP. replace (lCmd toks) with (ident n_l :: toks); [apply one_statement, phrase_apply; [reflexivity|exact H]|].
      destruct toks as [|[[] s1] [|[[] s2] [|]]]; try reflexivity. destruct (NP s1 s2 eq_refl).
  Qed.
  Theorem C133_zero z : g_number G [48] = Some z ->
    parse G (rw0 113 []) = Ok [Some (EApp (fn (n_a 113)) None (EConst z) false)]
    /\ parse G (rw0 104 []) = Ok [Some (EApp (fn (n_a 104)) None (EConst z) false)]
    /\ parse G (cdCmd []) = Ok [Some (EApp (fn n_cd) None (EConst z) false)]
    /\ parse G (mCmd []) = Ok [Some (EApp (fn n_mount) None (EConst z) false)].
  Proof. intros Z. repeat split; (apply one_statement, phrase_apply; [reflexivity|apply phrase_atom, (a_number G t_zero); [reflexivity|exact Z]]). Qed.
  (* what follows /q and /h belongs to their argument, which starts with 0 *)
  Theorem C133_rest r toks e : (r = 113 \/ r = 104) -> phrase G (t_zero :: toks) (N e) -> parse G (rw0 r toks) = Ok [Some (EApp (fn (n_a r)) None e false)].
  Proof. intros [-> | ->] H; (apply one_statement, phrase_apply; [reflexivity|exact H]). Qed.
  (* typed lines: a slash or backslash and the name, with the commands of the packages a and io *)
  Theorem C133_typed C t toks e z : s_commands C = commands -> slash t -> rewritten C toks toks -> phrase G toks (N e) -> g_number G [48] = Some z ->
    parse G (applyCmds C (t :: ident [112] :: toks)) = Ok [Some (EApp (fn (n_a 112)) None e false)]
    /\ parse G (applyCmds C (t :: ident [99; 100] :: toks)) = Ok [Some (EApp (fn n_cd) None e false)]
    /\ ((forall a b, toks <> [Tok M_Scan.String a; Tok M_Scan.String b]) -> parse G (applyCmds C (t :: ident [108] :: toks)) = Ok [Some (EApp (fn n_l) None e false)])
    /\ parse G (applyCmds C [t; ident [113]]) = Ok [Some (EApp (fn (n_a 113)) None (EConst z) false)]
    /\ parse G (applyCmds C [t; ident [104]]) = Ok [Some (EApp (fn (n_a 104)) None (EConst z) false)]
    /\ parse G (applyCmds C [t; ident [99; 100]]) = Ok [Some (EApp (fn n_cd) None (EConst z) false)]
    /\ parse G (applyCmds C [t; ident [109]]) = Ok [Some (EApp (fn n_mount) None (EConst z) false)].
  Proof.
    intros EC St RW H Z. destruct (C133_apply toks e H) as (A1 & A2 & A3). destruct (C133_zero z Z) as (B1 & B2 & B3 & B4).
    assert (ID : applyCmds C toks = toks) by (apply applyCmds_rewritten; exact RW).
    assert (K : forall c rw l, commands c = Some rw -> applyCmds C (t :: ident c :: l) = rw (applyCmds C l)).
    { intros c rw l E. rewrite <- EC in E. destruct St as [-> | ->]; unfold ident; cbn [applyCmds];
        change (in_runes (nth 0 [47] 0) [r_slash; r_bslash] && (length [47] =? 1)%nat) with true;
        change (in_runes (nth 0 [92] 0) [r_slash; r_bslash] && (length [92] =? 1)%nat) with true; rewrite E; reflexivity. }
    split; [|split; [|split; [|split; [|split; [|split]]]]].
    - rewrite (K [112] printCmd toks eq_refl), ID. exact A1.
    - rewrite (K [99; 100] cdCmd toks eq_refl), ID. exact A2.
    - intros NP. rewrite (K [108] lCmd toks eq_refl), ID. exact (A3 NP).
    - rewrite (K [113] (rw0 113) [] eq_refl). exact B1.
    - rewrite (K [104] (rw0 104) [] eq_refl). exact B2.
    - rewrite (K [99; 100] cdCmd [] eq_refl). exact B3.
    - rewrite (K [109] mCmd [] eq_refl). exact B4.
  Qed.
  (* /l `file `pkg loads the file with the package on the left, /m A B mounts A under B, where a
     slash and a dot stand for these strings. *)
  Theorem C133_two a b : 
    parse G (lCmd [Tok M_Scan.String a; Tok M_Scan.String b]) = Ok [Some (EApp (fn n_l) (Some (EConst (g_string G b))) (EConst (g_string G a)) false)].
  Proof. apply one_statement, phrase_dyadic; [reflexivity|apply (a_string G (Tok M_Scan.String b)); reflexivity|apply (a_string G (Tok M_Scan.String a)); reflexivity]. Qed.
  Inductive names_path : token -> text -> Prop :=
  | np_string s : names_path (Tok M_Scan.String s) s
  | np_slash : names_path (Tok Symbol [47]) [47]
  | np_dot : names_path (Tok Symbol [46]) [46].
  Theorem C133_mount t u a b : names_path t a -> names_path u b ->
    parse G (mCmd [t; u]) = Ok [Some (EApp (fn n_mount) (Some (EConst (g_string G b))) (EConst (g_string G a)) false)].
  Proof.
    intros A B. cbn [mCmd].
    assert (S : forall t a, names_path t a -> as_string t = Tok M_Scan.String a) by (intros t0 a0 [s| |]; reflexivity).
    rewrite (S t a A), (S u b B). apply one_statement, phrase_dyadic; [reflexivity|apply (a_string G (Tok M_Scan.String b)); reflexivity|apply (a_string G (Tok M_Scan.String a)); reflexivity].
  Qed.

  (* /t P runs the program P between T__←a→t 0 and a→t T__; a diamond at the end of P adds an empty
     statement. *)
  Definition time_var : expr D := EVar (name_of (g_unicode G) n_T).
  Definition start_timer (z : D) : expr D := EApp (FDer assign_op (Some time_var) None) None (EApp (fn (n_a 116)) None (EConst z) false) false.
  Definition stop_timer : expr D := EApp (fn (n_a 116)) None time_var false.
  Lemma phrase_start z : g_number G [48] = Some z -> g_primitive G assign_op = false -> g_operator G assign_op = Some false ->
    phrase G [ident n_T; t_assign; ident (n_a 116); t_zero] (N (start_timer z)).
  Proof.
    intros Z P O.
    assert (A : base G [ident n_T] (N time_var)).
    { apply (b_array G _ [time_var]); [discriminate|]. apply (as_cons G _ [time_var] [] []); [apply (a_var G (ident n_T)); reflexivity|constructor|discriminate]. }
    assert (B : base G [t_zero] (N (EConst z))).
    { apply (b_array G _ [EConst z]); [discriminate|]. apply (as_cons G _ [EConst z] [] []); [apply (a_number G t_zero); [reflexivity|exact Z]|constructor|discriminate]. }
    apply (ph G _ [N time_var; Mop assign_op; V (fn (n_a 116)); N (EConst z)]).
    - apply (cs_cons G [ident n_T] [_] [t_assign; ident (n_a 116); t_zero] [Mop assign_op; V (fn (n_a 116)); N (EConst z)]); [apply ch_base; exact A| |].
      + apply (cs_cons G [t_assign] [_] [ident (n_a 116); t_zero] [V (fn (n_a 116)); N (EConst z)]).
        * apply ch_operator. apply (o_monadic G _ t_assign); [reflexivity|exact P|exact O|discriminate].
        * apply (cs_cons G [ident (n_a 116)] [_] [t_zero] [N (EConst z)]); [apply ch_base; apply (b_name G (ident (n_a 116))); reflexivity| |apply not_array; reflexivity].
          apply (cs_cons G [t_zero] [_] [] []); [apply ch_base; exact B|constructor|]. intros a' x y b' _ E; discriminate.
        * intros a' x y b' E1 E2 [H _]. destruct a' as [|w a']; [|destruct a'; discriminate E1]. injection E1 as <-. destruct H as [H|[H|[H|[H _]]]]; discriminate H.
      + intros a' x y b' E1 E2 [_ H]. injection E2 as <- _. destruct H as [H|[H|[H|[H _]]]]; discriminate H.
    - eapply s_value; [|apply v_monadic, v_monadic, v_noun].
      apply (words_cons [N time_var; Mop assign_op] _ [V (fn (n_a 116)); N (EConst z)]); [apply (word_mop [N time_var] (N time_var)); constructor; reflexivity|].
      eapply (words_cons [_] _ _ _); [apply word_operand; reflexivity|]. eapply (words_cons [_] _ [] []); [apply word_operand; reflexivity|apply words_nil].
    - intros a' m b' E H. inversion H; subst; repeat (destruct a' as [|? a']; cbn [app] in E; [try discriminate E; injection E; intros; subst; discriminate|first [discriminate E|injection E as _ E]]); try discriminate E; destruct a'; discriminate E.
    - intros (a' & x & _ & E). destruct a' as [|? [|? [|? [|? a']]]]; try discriminate. destruct a'; discriminate.
  Qed.
  Lemma phrase_stop : phrase G [ident (n_a 116); ident n_T] (N stop_timer).
  Proof. apply phrase_apply; [reflexivity|]. apply phrase_atom. apply (a_var G (ident n_T)); reflexivity. Qed.
  Lemma program_app toks es : program G toks es -> forall d rest fs, M_Scan.tt d = Diamond -> program G rest fs ->
    exists es', (es' = es \/ es' = es ++ [None]) /\ program G (toks ++ d :: rest) (es' ++ fs).
  Proof.
    induction 1 as [toks p H|toks e d0 H D0|toks e d0 r es H D0 _ IH]; intros d rest fs Dd R.
    - exists [Some (result p)]. split; [left; reflexivity|]. apply (pg_more G toks (Some (result p)) d rest fs); [constructor; exact H|exact Dd|exact R].
    - exists [e; None]. split; [right; reflexivity|]. rewrite <- app_assoc. cbn [app]. apply pg_more; [exact H|exact D0|].
      apply (pg_more G [] None d rest fs); [constructor|exact Dd|exact R].
    - destruct (IH d rest fs Dd R) as (es' & X & P). exists (e :: es'). split; [destruct X as [-> | ->]; [left|right]; reflexivity|].
      rewrite <- app_assoc. cbn [app]. apply pg_more; assumption.
  Qed.
  Theorem C133_time z toks es : g_number G [48] = Some z -> g_primitive G assign_op = false -> g_operator G assign_op = Some false ->
    program G toks es ->
    exists es', (es' = es \/ es' = es ++ [None]) /\ parse G (timeCmd toks) = Ok (Some (start_timer z) :: es' ++ [Some stop_timer])
    /\ forall C t, s_commands C = commands -> slash t -> rewritten C toks toks -> applyCmds C (t :: ident [116] :: toks) = timeCmd toks.
  Proof.
    intros Z P O H. destruct (program_app toks es H diamond [ident (n_a 116); ident n_T] [Some stop_timer] eq_refl (pg_last G _ _ phrase_stop)) as (es' & X & R).
    exists es'. split; [exact X|]. split; [|intros C t EC St RW; apply applyCmds_rewritten, (rw_command C _ [116] timeCmd toks); [|exact RW]; exists t; split; [exact St|]; split; [reflexivity|]; rewrite EC; reflexivity].
    apply C90_program. unfold timeCmd.
    apply (pg_more G [ident n_T; t_assign; ident (n_a 116); t_zero] (Some (start_timer z)) diamond _ _); [|reflexivity|exact R].
    exact (rd_value G _ _ (phrase_start z Z P O)).
  Qed.
End Meaning.
Print Assumptions C133_apply.
Print Assumptions C133_mount.
Print Assumptions C133_time.

(* ---------- examples ---------- *)
(* a scanner with the commands, ← and the symbols of apl_scanner; /t 1+2 and /q and /p/p 3 *)
Definition cmd_scanner : scanner := mkScanner (s_unicode apl_scanner) (s_symbols apl_scanner) commands (s_unquote apl_scanner).
Definition cmd_show (s : string) : outcome (list (option (expr text))) := ParseLines apl cmd_scanner (symbols s).
Local Notation at_ n := (FVar (Pkg "a" n true)).
Example C133_example :
  cmd_show "/t 1+2" = Ok [Some (start_timer apl [48]); Some (EApp (FPrim "+") (Some (num "1")) (num "2") false); Some (stop_timer apl)]
  /\ cmd_show "/q" = Ok [Some (EApp (at_ "q") None (num "0") false)]
  /\ cmd_show "/p/p 3" = Ok [Some (EApp (at_ "p") None (EApp (at_ "p") None (num "3") false) false)]
  /\ cmd_show "+/p" = Ok [Some (EFn (FTrain [EFn (FDer "/" (Some (EFn (FPrim "+"))) None); EFn (FVar (Fun "p"))]))]
  /\ g_number apl [48] = Some [48] /\ g_primitive apl assign_op = false /\ g_operator apl assign_op = Some false.
Proof. repeat split; vm_compute; reflexivity. Qed.
