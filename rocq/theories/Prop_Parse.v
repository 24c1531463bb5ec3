(* Prop_Parse.v -- the properties of the line buffer and the parser: C68, C69. *)
From Verif Require Import Base M_Scan S_Scan P_Scan M_Syntax M_Parse S_Parse P_Parse P_Lines.
From Coq Require Import String List Bool ZArith Lia.
Import ListNotations.
Open Scope Z_scope.
Open Scope list_scope.

(* the buffer after a sequence of calls *)
Definition happen {D : Type} (G : grammar D) (C : scanner) (e : event) (b : buffer) : buffer :=
  match e with Added line => snd (AddLine C line b) | Parsed => snd (Parse G b) end.
Definition buffer_after {D : Type} (G : grammar D) (C : scanner) (h : list event) : buffer :=
  fold_left (fun b e => happen G C e b) h NewLineBuffer.

Lemma pending_good : forall D (G : grammar D) C h ls, pending C h ls -> good ls (buffer_after G C h).
Proof.
  intros D G C h ls H. induction H as [|h ls H IH|h ls line toks H IH S N|h ls line toks H IH S N|h ls line H IH S];
    unfold buffer_after in *; rewrite ?fold_left_app; cbn [fold_left happen].
  - apply good_new.
  - cbn. apply good_new.
  - destruct (Add_spec C ls _ line toks IH S) as [[-> E]|[(_ & _ & b' & E & GD)|(_ & X & _)]]; [| |contradiction]; rewrite E; cbn [snd].
    + destruct IH as (A & B & X). unfold good. rewrite joined_snoc. cbn [join2]. auto.
    + exact GD.
  - destruct (Add_spec C ls _ line toks IH S) as [[-> E]|[(_ & X & _)|(_ & _ & E)]]; [|contradiction|].
    + exfalso. apply N. rewrite joined_snoc. cbn [join2]. apply IH.
    + rewrite E. apply good_new.
  - unfold AddLine. destruct (Scan C line) as [t| |]; [exfalso; eapply S; reflexivity|apply good_new|apply good_new].
Qed.

(* ---------- C68: multi-line input is complete exactly when the braces balance ---------- *)
(* every history has its pending lines *)
Theorem C68_history : forall C h, exists ls, pending C h ls.
Proof.
  intros C h. induction h as [|e h [ls IH]] using rev_ind; [exists []; constructor|].
  destruct e as [line|]; [|exists []; econstructor; exact IH].
  destruct (Scan C line) as [toks| |] eqn:S; [|exists []; eapply p_unread; [exact IH|congruence]..].
  assert (D : no_surplus (joined (ls ++ [toks])) \/ ~ no_surplus (joined (ls ++ [toks]))).
  { pose proof (pending_good _ (mkGrammar (D := unit) (fun _ => false) (fun _ => None) (s_unicode C) (fun _ => None) (fun _ => Datatypes.tt) Datatypes.tt) C h ls IH) as GD.
    destruct (Add_spec C ls _ line toks GD S) as [[-> E]|[(_ & X & _)|(_ & X & _)]]; auto.
    left. rewrite joined_snoc. apply GD. }
  destruct D as [N|N]; [exists (ls ++ [toks]); apply p_added; auto|exists []; eapply p_surplus; eauto].
Qed.
(* a line with tokens: complete exactly if all braces are closed *)
Theorem C68_complete : forall D (G : grammar D) C h ls line toks, pending C h ls ->
  Scan C line = Ok toks -> toks <> [] -> no_surplus (joined (ls ++ [toks])) ->
  exists done, fst (AddLine C line (buffer_after G C h)) = Ok done /\ (done = true <-> open_braces (joined (ls ++ [toks])) = 0).
Proof.
  intros D G C h ls line toks H S T N.
  destruct (Add_spec C ls _ line toks (pending_good D G C h ls H) S) as [[X _]|[(_ & _ & b' & E & _)|(_ & X & _)]]; try contradiction.
  rewrite E. eexists. split; [reflexivity|]. apply Z.eqb_eq.
Qed.
(* a line without tokens changes nothing *)
Theorem C68_blank : forall C line b, Scan C line = Ok [] -> AddLine C line b = (Ok false, b).
Proof. intros C line b S. unfold AddLine. rewrite S. reflexivity. Qed.
(* a brace too many, or a line that cannot be read: an error, and the buffer is new *)
Theorem C68_surplus : forall D (G : grammar D) C h ls line toks, pending C h ls ->
  Scan C line = Ok toks -> ~ no_surplus (joined (ls ++ [toks])) ->
  AddLine C line (buffer_after G C h) = (Err, NewLineBuffer).
Proof.
  intros D G C h ls line toks H S N. pose proof (pending_good D G C h ls H) as GD.
  destruct (Add_spec C ls _ line toks GD S) as [[-> _]|[(_ & X & _)|(_ & _ & E)]]; [|contradiction|exact E].
  exfalso. apply N. rewrite joined_snoc. apply GD.
Qed.
Theorem C68_unread : forall C line b, (forall toks, Scan C line <> Ok toks) -> AddLine C line b = (Err, NewLineBuffer).
Proof. intros C line b S. unfold AddLine. destruct (Scan C line) as [t| |]; [exfalso; eapply S; reflexivity|reflexivity..]. Qed.
(* the program is that of the joined lines, and the buffer is new *)
Theorem C68_joined : forall D (G : grammar D) C h ls, pending C h ls ->
  Parse G (buffer_after G C h) = (parse G (joined ls), NewLineBuffer).
Proof. intros D G C h ls H. unfold Parse. destruct (pending_good D G C h ls H) as (-> & _). reflexivity. Qed.
(* a text with many lines *)
Theorem C68_text : forall D (G : grammar D) C s lines, Forall2 (fun l t => Scan C l = Ok t) (split_lines s) lines ->
  (last lines [] <> [] /\ no_surplus (joined lines) /\ open_braces (joined lines) = 0 -> ParseLines G C s = parse G (joined lines)) /\
  (last lines [] = [] \/ ~ no_surplus (joined lines) \/ open_braces (joined lines) <> 0 -> ParseLines G C s = Err).
Proof.
  intros D G C s lines F.
  assert (NE : split_lines s <> []).
  { destruct s as [|r s]; cbn [split_lines]; [discriminate|]. destruct (r =? 10); [discriminate|]. destruct (split_lines s); discriminate. }
  destruct (addLines_spec G C (split_lines s) lines NewLineBuffer [] NE good_new F) as [A B]. split; [intros (L & N & O); apply A; assumption|exact B].
Qed.
Print Assumptions C68_history.
Print Assumptions C68_complete.
Print Assumptions C68_surplus.
Print Assumptions C68_joined.
Print Assumptions C68_text.

(* ---------- C69: the bracket structure is validated ---------- *)
Theorem C69_nested : forall D (G : grammar D) toks p, Forall (fun t => M_Scan.tt t <> Endl) toks ->
  parse G toks = Ok p -> nested toks.
Proof. intros D G toks p F H. eapply parse_nested; eassumption. Qed.
Theorem C69_statement : forall D (G : grammar D) toks r, Forall (fun t => M_Scan.tt t <> Endl) toks ->
  parse_statement G toks = Ok r -> nested toks.
Proof. intros D G toks r F H. eapply parse_statement_nested; eassumption. Qed.
(* the commands of the scanner, which rewrite the tokens of a line, add no end-of-line tokens *)
Definition no_endl (l : list token) : Prop := Forall (fun t => M_Scan.tt t <> Endl) l.
Definition plain_commands (C : scanner) : Prop := forall s f l, s_commands C s = Some f -> no_endl l -> no_endl (f l).
Lemma scan_no_endl : forall C line toks, plain_commands C -> Scan C line = Ok toks -> no_endl toks.
Proof.
  intros C line toks PC H. unfold Scan in H. destruct (scanTokens C line) as [l| |] eqn:E; try discriminate. injection H as <-.
  assert (F : no_endl l).
  { unfold scanTokens in E. revert E. generalize (Datatypes.S (length line)). intros n. revert line l.
    induction n as [|n IH]; intros line l E; [discriminate|]. cbn [scanLoop] in E.
    destruct (nextToken C line) as [[t r]| |] eqn:N; try discriminate. cbn [obind fst snd] in E.
    destruct (M_Scan.tt t) eqn:T; try (injection E as <-; constructor);
      (destruct (scanLoop C n r) as [l'| |] eqn:L; try discriminate; injection E as <-; constructor; [congruence|eapply IH; exact L]). }
  clear E. assert (K : forall n (l : list token), (length l <= n)%nat -> no_endl l -> no_endl (applyCmds C l)).
  { clear F l. intros n. induction n as [|n IH]; intros l LE F; [destruct l; [exact F|cbn in LE; lia]|].
    destruct l as [|[[] s] l]; try exact F. destruct l as [|[[] c] l]; try exact F. cbn [applyCmds].
    destruct (_ && _); [|exact F]. destruct (s_commands C c) as [f|] eqn:CE; [|exact F].
    eapply PC; [exact CE|]. inversion F as [|? ? _ F']; subst. inversion F'; subst. apply IH; [cbn in LE; lia|assumption]. }
  eapply K; [apply le_n|exact F].
Qed.
Lemma no_surplus_dec : forall l, no_surplus l \/ ~ no_surplus l.
Proof. intros l. destruct (braces_spec l 0 ltac:(lia)) as [[H _]|[H _]]; [left|right]; exact H. Qed.
Lemma joined_no_endl : forall lines, Forall no_endl lines -> no_endl (joined lines).
Proof.
  intros lines. induction lines as [|x l IH] using rev_ind; intros F; [constructor|]. apply Forall_app in F. destruct F as [F1 F2].
  inversion F2 as [|? ? X _]; subst. rewrite joined_snoc. unfold join2. destruct x as [|t x]; [auto|]. apply (proj2 (Forall_app _ _ _)). split; [apply IH; exact F1|].
  apply (proj2 (Forall_app _ _ _)). split; [|exact X]. destruct (ends_open _); [constructor|]. constructor; [discriminate|constructor].
Qed.
(* a text that is accepted has nested brackets *)
Theorem C69_text : forall D (G : grammar D) C s lines p, plain_commands C ->
  Forall2 (fun l t => Scan C l = Ok t) (split_lines s) lines -> ParseLines G C s = Ok p -> nested (joined lines).
Proof.
  intros D G C s lines p PC F H. destruct (C68_text D G C s lines F) as [A B].
  assert (X : last lines [] <> [] /\ no_surplus (joined lines) /\ open_braces (joined lines) = 0).
  { split; [|split].
    - intros L. rewrite (B (or_introl L)) in H. discriminate.
    - destruct (no_surplus_dec (joined lines)) as [N|N]; [exact N|]. rewrite (B (or_intror (or_introl N))) in H. discriminate.
    - destruct (Z.eq_dec (open_braces (joined lines)) 0) as [N|N]; [exact N|]. rewrite (B (or_intror (or_intror N))) in H. discriminate. }
  rewrite (A X) in H. eapply parse_nested; [|exact H]. apply joined_no_endl.
  clear - PC F. induction F; constructor; auto. eapply scan_no_endl; eassumption.
Qed.
Print Assumptions C69_nested.
Print Assumptions C69_text.

(* ---------- examples ---------- *)
(* letters, the functions + and -, the operators / and . *)
Definition demo_scanner : scanner :=
  mkScanner (mkUnicode (fun _ => false) (fun _ => false) (fun _ => false) (fun _ => false))
            (fun r => if in_runes r [43; 45; 47; 46] then Some [r] else None) (fun _ => None) (fun t => Some t).
Definition demo : grammar text :=
  mkGrammar (fun s => existsb (String.eqb s) ["+"; "-"; "⌷"]%string)
            (fun s => if String.eqb s "/" then Some false else if String.eqb s "." then Some true else None)
            (s_unicode demo_scanner) (fun t => Some t) (fun t => t) [].
Definition chars (s : string) : text := map (fun a => Z.of_nat (Ascii.nat_of_ascii a)) (list_ascii_of_string s).
Notation num s := (EConst (chars s)).
(* {1      the lines of a function: not complete, blank, complete, and too many braces.
   (blank)
   2+3}    *)
Example C68_example :
  let A s := fst (AddLine demo_scanner (chars s) (fold_left (fun b s => snd (AddLine demo_scanner (chars s) b)) ["{1"%string; ""%string] NewLineBuffer)) in
  A "{1"%string = Ok false /\ A "}"%string = Ok true /\ A "2+3}"%string = Ok true /\ A "}}"%string = Err /\ A ""%string = Ok false /\
  ParseLines demo demo_scanner (chars "{1" ++ [10; 10] ++ chars "2+3}") =
    Ok [Some (EFn (FLam [Guard None (Some (num "1")); Guard None (Some (EApp (FPrim "+") (Some (num "2")) (num "3") false))]))].
Proof. cbn zeta. repeat split; vm_compute; reflexivity. Qed.
(* a line break at the end of a text is refused *)
Example C68_trailing : ParseLines demo demo_scanner (chars "1+2" ++ [10]) = Err /\
  exists p, ParseLines demo demo_scanner (chars "1+2") = Ok p.
Proof. split; [|eexists]; vm_compute; reflexivity. Qed.
Definition read (s : string) : outcome (list (option (expr text))) := ParseLines demo demo_scanner (chars s).
Example C69_example : read "(1+{2}[3;4])+" = Err /\ read "(1+2]" = Err /\ read "1)+(2" = Err /\ read "{1+(2}3)" = Err /\
  exists p, read "(1+2)-(A[3])" = Ok p.
Proof. repeat split; [vm_compute; reflexivity..|]. eexists. vm_compute. reflexivity. Qed.
(* not every program with nested brackets is accepted: an index behind an indexed noun that
   is an operand, and an axis behind the axis of a function, make the parser panic *)
Example C69_converse_fails : read "1+A[2][2]" = Panic /\ read "A[1][2][3]" = Panic.
Proof. split; vm_compute; reflexivity. Qed.
(* brackets at the left end are dropped: this program is read as 2 *)
Example C69_leading_index : read "[1]+2" = Ok [Some (num "2")].
Proof. vm_compute. reflexivity. Qed.
