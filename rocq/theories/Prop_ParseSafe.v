(* Prop_ParseSafe.v -- C162: reading a line does not end the process. *)
From Coq Require Import String List ZArith Lia Bool.
From Verif Require Import Base M_Scan M_Syntax M_Parse S_Parse P_Parse P_ParseSafe M_File Prop_Scan Prop_Parse Prop_File.
Import ListNotations.
Open Scope Z_scope.
Open Scope list_scope.

(* a word of kind x directly before a word of kind y *)
Definition next_to (x y : ttype) (toks : list token) : Prop := exists a t u b, toks = a ++ t :: u :: b /\ M_Scan.tt t = x /\ M_Scan.tt u = y.
(* no bracket directly after a bracket, and none at the start of a parenthesis *)
Definition single_brackets (toks : list token) : Prop := ~ next_to RightBrack LeftBrack toks /\ ~ next_to LeftParen LeftBrack toks.
Lemma single_quiet toks : single_brackets toks -> quiet_r (rev toks).
Proof. intros [A B]. apply quiet_rev. intros a t u b E U. split; intros T; [apply A|apply B]; exists a, t, u, b; auto. Qed.

(* the parser returns a program or an error *)
Theorem C162_tokens : forall D (G : grammar D) toks, no_endl toks -> single_brackets toks -> parse G toks <> Panic.
Proof. intros D G toks N S. apply parse_safe; [exact N|apply single_quiet, S]. Qed.
(* the words of a line *)
Definition calm (C : scanner) (line : text) : Prop := forall toks, Scan C line = Ok toks -> single_brackets toks.
Theorem C162_line : forall D (G : grammar D) C line, plain_commands C -> calm C line -> (let* toks := Scan C line in parse G toks) <> Panic.
Proof.
  intros D G C line PC Q. destruct (Scan C line) as [toks| |] eqn:E; cbn [obind]; [|discriminate|exfalso; exact (C89_total C line E)].
  apply C162_tokens; [eapply scan_no_endl; eassumption|apply Q; exact E].
Qed.
(* an interactive session goes on after every such line *)
Theorem C162_session : forall D St (G : grammar D) C (eval : list (option (expr D)) -> St -> outcome unit * St) lines s,
  plain_commands C -> recovers eval -> Forall (calm C) lines -> exists es s', repl G C eval lines s = (Ok es, s') /\ length es = length lines.
Proof.
  intros D St G C eval lines s PC R F. revert s. induction F as [|l lines Q _ IH]; intros s; [exists [], s; split; reflexivity|]. cbn [repl].
  assert (P : fst (ParseAndEval G C eval l s) <> Panic).
  { unfold ParseAndEval. pose proof (C162_line D G C l PC Q) as N. destruct (obind _ _) as [p| |]; [apply R|discriminate|congruence]. }
  destruct (ParseAndEval G C eval l s) as [[u| |] s1]; cbn [fst] in P; [| |congruence]; destruct (IH s1) as (es & s' & E & L); rewrite E; cbn [obind]; eexists _, s'; (split; [reflexivity|cbn [length]; lia]).
Qed.
(* nor does running a file end the process *)
Lemma single_nil : single_brackets [].
Proof. split; intros (a & t & u & b & E & _); destruct a; discriminate E. Qed.
Lemma next_app x y a b : next_to x y (a ++ b) -> next_to x y a \/ next_to x y b \/ exists t u, M_Scan.tt t = x /\ M_Scan.tt u = y /\ (exists a', a = a' ++ [t]) /\ exists b', b = u :: b'.
Proof.
  intros (c & t & u & d & E & T & U). revert a E. induction c as [|v c IH]; intros a E.
  - destruct a as [|w a]; [right; left; exists [], t, u, d; auto|]. injection E as <- E. destruct a as [|w2 a].
    + right. right. exists w, u. repeat split; auto; [exists []; reflexivity|exists d; exact E].
    + injection E as <- E. left. exists [], w, w2, a. auto.
  - destruct a as [|w a]; [right; left; exists (v :: c), t, u, d; auto|]. injection E as <- E. destruct (IH a E) as [(a0 & t0 & u0 & b0 & E0 & X)|[H|(t0 & u0 & X & Y & (a' & A) & B)]].
    + left. exists (w :: a0), t0, u0, b0. rewrite E0. auto.
    + auto.
    + right. right. exists t0, u0. repeat split; auto. exists (w :: a'). rewrite A. reflexivity.
Qed.
Lemma single_app a b : single_brackets a -> single_brackets b -> (forall t a', a = a' ++ [t] -> M_Scan.tt t <> RightBrack /\ M_Scan.tt t <> LeftParen) -> single_brackets (a ++ b).
Proof.
  intros [A1 A2] [B1 B2] H. split; intros N; apply next_app in N; destruct N as [N|[N|(t & u & T & U & (a' & E) & _)]]; try contradiction; destruct (H t a' E); congruence.
Qed.
Definition calm_buffer (b : buffer) : Prop := no_endl (b_tokens b) /\ single_brackets (b_tokens b).
Theorem C162_file : forall D St (G : grammar D) C (eval : list (option (expr D)) -> St -> outcome unit * St) too_long content s,
  plain_commands C -> recovers eval -> Forall (calm C) (text_lines content) -> fst (EvalFile G C eval too_long content s) <> FPanic.
Proof.
  intros D St G C eval too_long content s PC R F. unfold EvalFile, run_lines.
  assert (FU : Forall (calm C) (until too_long (text_lines content))).
  { induction F as [|l ls Q _ IH]; cbn [until]; [constructor|]. destruct (too_long l); [constructor|]. constructor; assumption. }
  assert (K : forall ls n ok b s, Forall (calm C) ls -> calm_buffer b -> fst (file_loop G C eval ls n ok b s) <> FPanic).
  { clear - PC R. induction ls as [|l ls IH]; intros n ok b s F B; cbn [file_loop]; [destruct (_ && _); discriminate|]. inversion F as [|? ? Q F']; subst.
    assert (A : forall r b', AddLine C l b = (Ok r, b') -> calm_buffer b').
    { intros r b' E. unfold AddLine in E. destruct (Scan C l) as [toks| |] eqn:S; try discriminate E. destruct toks as [|t toks]; [injection E as _ <-; exact B|].
      destruct (braces _ _) as [lv|]; [|discriminate E]. injection E as _ <-. unfold calm_buffer. cbn [b_tokens]. pose proof (scan_no_endl C l _ PC S) as NT. pose proof (Q _ S) as ST. destruct B as [NB SB]. split.
      - apply Forall_app. split; [exact NB|]. apply Forall_app. split; [|exact NT]. destruct (match rev (b_tokens b) with [] => false | _ => _ end); repeat constructor. discriminate.
      - destruct (rev (b_tokens b)) as [|z r0] eqn:RV.
        + assert (b_tokens b = []) as -> by (rewrite <- (rev_involutive (b_tokens b)), RV; reflexivity). exact ST.
        + assert (EB : b_tokens b = rev r0 ++ [z]) by (rewrite <- (rev_involutive (b_tokens b)), RV; reflexivity). destruct (teqb (M_Scan.tt z) LeftBrace) eqn:Z; cbn [negb app].
          * apply single_app; [exact SB|exact ST|]. intros t0 a' Ea. rewrite EB in Ea. apply app_inj_tail in Ea. destruct Ea as [_ <-]. apply teqb_eq in Z. split; congruence.
          * assert (SD : single_brackets (b_tokens b ++ [diamond])).
            { split; intros N; apply next_app in N; destruct N as [N|[N|(t0 & u & T & U & _ & (b' & Eb))]]; try (apply SB in N; exact N); try (apply (proj1 SB) in N; exact N); try (destruct N as (c & t1 & u1 & d & E & _); destruct c as [|? [|]]; discriminate E); injection Eb as <- _; discriminate U. }
            change (diamond :: t :: toks) with ([diamond] ++ t :: toks). rewrite app_assoc. apply single_app; [exact SD|exact ST|]. intros t0 a' Ea. apply app_inj_tail in Ea. destruct Ea as [_ <-]. split; discriminate. }
    destruct (AddLine C l b) as [[[]| |] b1] eqn:E; try discriminate.
    - pose proof (A _ _ eq_refl) as [NB SB]. unfold Parse. pose proof (C162_tokens D G (b_tokens b1) NB SB) as P. destruct (parse G (b_tokens b1)) as [p| |]; try discriminate; [|congruence].
      pose proof (R p s) as RP. destruct (eval p s) as [[| |] s1]; try discriminate; [|cbn in RP; congruence]. apply IH; [exact F'|]. split; [constructor|apply single_nil].
    - apply IH; [exact F'|]. apply (A false). reflexivity. }
  apply K; [exact FU|]. split; [constructor|apply single_nil].
Qed.

(* Brackets after brackets: A[1][2] is read, but anything to its left, or a third bracket, makes the
   parser panic (the type assertion of parse.go:585), and nothing recovers a panic of the parser. *)
Theorem C162_refuted :
  let P s := (let* toks := Scan demo_scanner (chars s) in parse demo toks) in
  (exists p, P "A[1][2]"%string = Ok p) /\ P "1+A[1][2]"%string = Panic /\ P "A[1][2][3]"%string = Panic /\ P "1+A([1])[2]"%string = Panic.
Proof. cbn zeta. split; [eexists; vm_compute; reflexivity|]. repeat split; vm_compute; reflexivity. Qed.
(* such a line ends an interactive session: the lines after it are not run *)
Theorem C126_parser_refuted : forall s, repl demo demo_scanner record_eval [chars "1+A[1][2]"; chars "4"] s = (Panic, s).
Proof. intros s. cbn [repl]. replace (ParseAndEval demo demo_scanner record_eval (chars "1+A[1][2]") s) with (@Panic unit, s); [reflexivity|]. unfold ParseAndEval. replace (let* toks := Scan demo_scanner (chars "1+A[1][2]") in parse demo toks) with (@Panic (list (option (expr text)))) by (vm_compute; reflexivity). reflexivity. Qed.
Print Assumptions C162_tokens. Print Assumptions C162_line. Print Assumptions C162_session. Print Assumptions C162_file. Print Assumptions C162_refuted. Print Assumptions C126_parser_refuted.

(* the line  (1+A[2])+{B[+/1]}3  and a line with an error *)
Example C162_example : Forall (calm demo_scanner) [chars "(1+A[2])+{B[+/1]}3"; chars "1+[)"] /\
  exists es s', repl demo demo_scanner record_eval [chars "(1+A[2])+{B[+/1]}3"; chars "1+[)"] [] = (Ok es, s') /\ es = [false; true].
Proof.
  split; [|eexists _, _; vm_compute; split; reflexivity].
  apply Forall_cons; [|apply Forall_cons; [|apply Forall_nil]]; intros toks E; vm_compute in E; injection E as <-; split; intros (a & t & u & b & X & T & U);
    repeat (destruct a as [|? a]; [first [discriminate X|injection X as <- <- _; cbn in T, U; congruence]|cbn [app] in X; first [discriminate X|injection X as <- X]]).
Qed.
