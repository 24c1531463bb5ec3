(* Prop_Session.v -- C155: a line means what its sentences say; C156: ⍎⍕V is V. *)
From Coq Require Import String List Bool ZArith Lia.
From Verif Require Import Base M_Array S_Array M_Scan S_Scan P_Scan M_Strings M_Format S_Format P_Format P_Format2 P_Format3 M_Syntax M_Parse S_Parse S_Grammar M_Eval S_Eval P_Eval M_Execute M_Session S_Session P_Session Prop_Eval Prop_Parse Prop_Grammar Prop_Program Prop_Scan Prop_Format.
Import ListNotations.
Open Scope list_scope.

Lemma applyCmds_none C l : no_command C l -> applyCmds C l = l.
Proof.
  intros H. destruct l as [|[ty f] l]; [reflexivity|]. destruct ty; try reflexivity. destruct l as [|[ty2 c] l]; [reflexivity|]. destruct ty2; try reflexivity.
  cbn [applyCmds]. rewrite (H f c l eq_refl). destruct (_ && _); reflexivity.
Qed.
Section C155.
  Context {D X : Type} (L : lang D X) (G : grammar D) (C : scanner).
  Lemma before_some (l : list (expr D)) : before_nil (map Some l) = (l, true).
  Proof. induction l as [|e l IH]; [reflexivity|]. cbn [map before_nil]. rewrite IH. reflexivity. Qed.
  Lemma line_ok l line : l <> [] -> Forall (sent_ok L G) l -> reads C line (line_words l) -> no_command C (line_words l) ->
    ParseLine G C line = Ok (map Some (map (expr_of G) l)).
  Proof.
    intros N0 F R NC. unfold ParseLine, Scan. rewrite (proj2 (C89_reads C line (line_words l)) R). cbn [obind]. rewrite (applyCmds_none C _ NC).
    rewrite (line_parses L G l N0 F), map_map. reflexivity.
  Qed.
  (* A line of sentences, written in any way, runs its sentences from the first to the last, each
     from the right to the left, and shows the values of those that are not assignments. *)
  Theorem C155_line l line : l <> [] -> Forall (sent_ok L G) l -> reads C line (line_words l) -> no_command C (line_words l) ->
    forall s o s', (exists n, ParseAndEval L G C n line s = Some (o, s')) <-> session L G l s o s'.
  Proof.
    intros N0 F R NC s o s'. rewrite (session_runs L G l F), <- (C97_statements L).
    assert (E : forall n, ParseAndEval L G C n line s = Eval L n (map (expr_of G) l) s).
    { intros n. unfold ParseAndEval. rewrite (line_ok l line N0 F R NC), before_some. unfold mbind. destruct (Eval L n (map (expr_of G) l) s) as [[[[]| |] s1]|]; reflexivity. }
    split; intros [n H]; exists n; [rewrite <- E|rewrite E]; exact H.
  Qed.
  (* An empty statement, two diamonds in a row or one at the start of the line, is an error, but
     only after the sentences before it have been run; what follows is not run. *)
  Definition empty_statement (l : list (sent D)) (rest : list token) : list token :=
    flat_map (fun e => sent_words e ++ [Tok Diamond [8900%Z]]) l ++ Tok Diamond [8900%Z] :: rest.
  Theorem C155_empty_statement l rest es line : Forall (sent_ok L G) l -> rest = [] \/ program G rest es ->
    reads C line (empty_statement l rest) -> no_command C (empty_statement l rest) ->
    forall s o s', (exists n, ParseAndEval L G C n line s = Some (o, s')) <-> o = Err /\ exists o1, session L G l s o1 s'.
  Proof.
    intros F HR R NC s o s'.
    assert (P : exists tl, program G (empty_statement l rest) (map (fun e => Some (expr_of G e)) l ++ None :: tl)).
    { clear R NC. unfold empty_statement. destruct HR as [->|HR].
      - exists []. induction F as [|e l He _ IH]; [apply (pg_end G []); [constructor|reflexivity]|]. cbn [map app flat_map]. rewrite <- !app_assoc. cbn [app].
        apply pg_more; [exact (rd_value G _ _ (sent_parses L G e He))|reflexivity|]. exact IH.
      - exists es. induction F as [|e l He _ IH]; [apply (pg_more G []); [constructor|reflexivity|exact HR]|]. cbn [map app flat_map]. rewrite <- !app_assoc. cbn [app].
        apply pg_more; [exact (rd_value G _ _ (sent_parses L G e He))|reflexivity|exact IH]. }
    destruct P as [tl P]. apply C90_program in P.
    assert (B : before_nil (map (fun e => Some (expr_of G e)) l ++ None :: tl) = (map (expr_of G) l, false)).
    { clear. induction l as [|e l IH]; [reflexivity|]. cbn [map app before_nil]. rewrite IH. reflexivity. }
    assert (E : forall n, ParseAndEval L G C n line s = match Eval L n (map (expr_of G) l) s with Some (_, s1) => Some (Err, s1) | None => None end).
    { intros n. unfold ParseAndEval, ParseLine, Scan. rewrite (proj2 (C89_reads C line _) R). cbn [obind]. rewrite (applyCmds_none C _ NC), P, B. unfold mbind, mfail.
      destruct (Eval L n (map (expr_of G) l) s) as [[[[]| |] s1]|] eqn:Ev; try reflexivity. exfalso. eapply P_Eval3.Eval_no_panic; [exact Ev|reflexivity]. }
    split.
    - intros [n H]. rewrite E in H. destruct (Eval L n (map (expr_of G) l) s) as [[o1 s1]|] eqn:Ev; [|discriminate H]. injection H as <- <-. split; [reflexivity|]. exists o1.
      apply (session_runs L G l F). apply (C97_statements L). exists n. exact Ev.
    - intros [-> [o1 H]]. apply (session_runs L G l F) in H. apply (C97_statements L) in H. destruct H as [n H]. exists n. rewrite E, H. reflexivity.
  Qed.
  (* ⍎ of a sentence has its meaning *)
  Theorem C155_execute e line : sent_ok L G e -> reads C line (sent_words e) -> no_command C (sent_words e) ->
    forall s v s', (exists n, ExecuteText L G C n line s = Some (Ok v, s')) <-> meaning L G e s (Ok v) s'.
  Proof.
    intros F R NC s v s'. rewrite (sent_means L G e F).
    assert (E : forall n, ExecuteText L G C n line s = interp L n (TEval (expr_of G e)) s).
    { intros n. unfold ExecuteText. rewrite (line_ok [e] line ltac:(discriminate) ltac:(auto) R NC), before_some. unfold execute, EvalProgram. cbn [map mmap]. unfold mbind.
      destruct (interp L n (TEval (expr_of G e)) s) as [[[w| |] s1]|]; reflexivity. }
    split; intros [n H]; exists n; [rewrite <- E|rewrite E]; exact H.
  Qed.
  (* what a line does is determined *)
  Theorem C155_deterministic l : Forall (sent_ok L G) l ->
    forall s o s' o2 s2, session L G l s o s' -> session L G l s o2 s2 -> o2 = o /\ s2 = s'.
  Proof.
    intros F s o s' o2 s2 H1 H2. apply (session_runs L G l F) in H1. apply (session_runs L G l F) in H2. eapply C97_deterministic; eassumption.
  Qed.
End C155.

(* ---- C156 ---- *)
Section C156.
  Context {B D X : Type} (L : lang D X) (G : grammar D) (C : scanner) (oshow : B -> text) (oparse : text -> option B) (quote : text -> text) (el : elt B -> D).
  Context (PS : proper_symbols C) (Q : quotes C quote) (Hnum : forall w, g_number G w = option_map el (towerParse oparse w))
          (Hstr : forall s, g_string G s = el (EString s)) (Hel : forall e, l_isArr L (el e) = false).
  Definition plain_element (e : elt B) : Prop := match e with EInt z => (- 2 ^ 63 <= z < 2 ^ 63)%Z | EOther _ => False | _ => True end.
  Lemma digits_head n : (0 <= n < 10 ^ 20)%Z -> exists r w, decimal n = r :: w /\ digit r = true.
  Proof. intros H. destruct (decimal_nonempty n H) as (r & l & E & R). exists r, l. split; [exact E|]. unfold digit, rune_range. apply andb_true_intro; split; apply Z.leb_le; lia. Qed.
  Lemma element_word e : plain_element e -> exists t, written C t (eltString oshow quote e) [32%Z] /\ is_literal L G (t, el e) /\ tt t <> Symbol.
  Proof.
    intros H. pose proof (C112_elements B C oshow oparse quote Q e H) as [(N0 & F & E)|(b & s & E1 & E2 & E3 & E4)].
    - assert (Hd : exists r w, eltString oshow quote e = r :: w /\ (digit r = true \/ r = r_macron)).
      { destruct e as [b|z|s|a]; cbn [eltString] in *.
        - destruct b; eexists _, _; (split; [reflexivity|left; reflexivity]).
        - cbn [plain_element] in H. unfold intString. destruct (z <? 0)%Z eqn:Hz; [eexists _, _; split; [reflexivity|right; reflexivity]|].
          destruct (digits_head z ltac:(lia)) as (r & w & Ed & Hr). exists r, w. split; [exact Ed|left; exact Hr].
        - exfalso. destruct (Q s) as (b & Eb & _ & _). rewrite Eb in F. inversion F as [|? ? F0 _]. discriminate F0.
        - contradiction. }
      destruct Hd as (r & w & W & Hr). rewrite W in *. exists (Tok Number (r :: w)). split; [|split; [split; [left; split; [reflexivity|]|apply Hel]|discriminate]].
      + constructor; [destruct Hr as [Hr|Hr]; [left; exact Hr|right; left; exact Hr]|inversion F; assumption|reflexivity].
      + cbn [fst snd ts]. rewrite Hnum, E. reflexivity.
    - exists (Tok M_Scan.String s). split; [|split; [split; [right; split; [reflexivity|]|apply Hel]|discriminate]].
      + rewrite E1. rewrite E1 in E3. apply w_double; assumption.
      + cbn [fst snd ts]. rewrite Hstr, E4. reflexivity.
  Qed.
  Lemma words_joined es : Forall plain_element es -> exists ts : list (token * D), map snd ts = map el es /\ Forall (is_literal L G) ts /\ Forall (fun t => tt (fst t) <> Symbol) ts /\
    Forall2 (fun t w => written C t w [32%Z]) (map fst ts) (map (eltString oshow quote) es).
  Proof.
    induction 1 as [|e es H _ (ts & E & F & NS & W)]; [exists []; repeat constructor|].
    destruct (element_word e H) as (t & Wt & It & Nt). exists ((t, el e) :: ts). cbn [map fst snd]. rewrite E. repeat split; constructor; assumption.
  Qed.
  Lemma joined_spaced ws : spaced ws (Join ws [r_space]).
  Proof.
    induction ws as [|w ws IH]; [apply (sp_end []); constructor|].
    destruct ws as [|w2 ws].
    - change (Join [w] [r_space]) with w. rewrite <- (app_nil_r w) at 2. apply (sp_word [] w [] [] []); [constructor|constructor|apply (sp_end []); constructor|right; reflexivity].
    - change (Join (w :: w2 :: ws) [r_space]) with (w ++ [r_space] ++ Join (w2 :: ws) [r_space]).
      apply (sp_word [] w [r_space]); [constructor|repeat constructor|exact IH|left; discriminate].
  Qed.
  Definition text_of (es : list (elt B)) : text := tableArray (eltString oshow quote) (fun _ => 0%nat) (mkArr [zlen es] es).
  Lemma row_text es : es <> [] -> Forall plain_element es -> forall s v s',
    (exists n, ExecuteText L G C n (text_of es) s = Some (Ok v, s')) <-> v = row L (map el es) /\ s' = s.
  Proof.
    intros N0 F s v s'. destruct (words_joined es F) as (ts & E & Fl & NS & W).
    assert (N1 : ts <> []) by (intros ->; destruct es; [congruence|discriminate E]).
    rewrite (C155_execute L G C (Lit ts) (text_of es)).
    - rewrite <- E. split; [intros M; inversion M; subst; split; reflexivity|intros (-> & ->); constructor].
    - split; assumption.
    - apply C89_reads, (C88_spacing C (map (eltString oshow quote) es)); [exact PS|exact W|apply joined_spaced].
    - intros f c r E2. cbn [sent_words] in E2. destruct ts as [|[t d] ts]; [discriminate E2|]. cbn [map fst] in E2. injection E2 as E2 _. inversion NS as [|? ? H0 _]. cbn [fst] in H0. rewrite E2 in H0. exfalso. apply H0. reflexivity.
  Qed.
  (* ⍎¯1⍕V of a vector of two or more elements is V *)
  Theorem C156_vector es : (2 <= length es)%nat -> Forall plain_element es -> forall s v s',
    (exists n, ExecuteText L G C n (text_of es) s = Some (Ok v, s')) <-> v = VD (l_mkarr L (map (fun e => VD (el e)) es)) /\ s' = s.
  Proof.
    intros N2 F s v s'. rewrite (row_text es) by (try assumption; intros ->; cbn in N2; lia). destruct es as [|e [|e2 es]]; cbn [length] in N2; try lia. cbn [map row]. rewrite map_map. reflexivity.
  Qed.
  (* ⍎¯1⍕X of a scalar is X *)
  Theorem C156_scalar e : plain_element e -> forall s v s', (exists n, ExecuteText L G C n (eltString oshow quote e) s = Some (Ok v, s')) <-> v = VD (el e) /\ s' = s.
  Proof. intros H s v s'. apply (row_text [e]); [discriminate|repeat constructor; exact H]. Qed.
  (* a vector of one element does not come back: its text is that of a scalar *)
  Theorem C156_single_refuted e : plain_element e -> forall s v s', (exists n, ExecuteText L G C n (text_of [e]) s = Some (Ok v, s')) <-> v = VD (el e) /\ s' = s.
  Proof. intros H s v s'. apply (row_text [e]); [discriminate|repeat constructor; exact H]. Qed.
End C156.

(* a text with a newline outside of quotes and comments is not a line *)
Definition not_quoting (r : Z) : Prop := ~ In r [r_quote; r_dquote; r_tick; r_lamp].
Lemma name_runes C a w : name_tail C a w -> ~ In r_newline w.
Proof.
  induction 1 as [|a r s A _ IH|s _ IH]; [intros []| |]; (intros [E|H]; [|exact (IH H)]); [|discriminate E]. subst r. discriminate A.
Qed.
Lemma reads_runes C line toks : s_symbols C r_newline = None -> reads C line toks -> Forall not_quoting line -> ~ In r_newline line.
Proof.
  intros NS. induction 1 as [|s H|b s l B0 NB _ IH|t w s l W _ IH]; intros F.
  - intros [].
  - inversion F as [|? ? H0 _]. exfalso. apply H0. do 3 right. left. reflexivity.
  - inversion F as [|? ? F1 F2]. intros [->|I0]; [discriminate B0|apply IH; assumption].
  - apply Forall_app in F. destruct F as (F1 & F2). rewrite in_app_iff. intros [I0|I0]; [|apply (IH F2 I0)]. clear IH F2.
    destruct W as [s0 rest _|s0 b rest _ _|s0 rest _ _|r w rest Hr Hw _|r t rest Hs _ _|r w rest Hr _ Hw _|r ty rest Hp _].
    + inversion F1 as [|? ? H0 _]. apply H0. left. reflexivity.
    + inversion F1 as [|? ? H0 _]. apply H0. right. left. reflexivity.
    + inversion F1 as [|? ? H0 _]. apply H0. right. right. left. reflexivity.
    + destruct I0 as [->|I0]; [destruct Hr as [Hr|[Hr|(Hr & _)]]; discriminate Hr|]. rewrite Forall_forall in Hw. specialize (Hw _ I0). discriminate Hw.
    + destruct I0 as [->|[]]. congruence.
    + destruct I0 as [->|I0]; [discriminate Hr|]. exact (name_runes C _ _ Hw I0).
    + destruct I0 as [->|[]]. discriminate Hp.
Qed.
Theorem C156_newline C line : s_symbols C r_newline = None -> Forall not_quoting line -> In r_newline line -> Scan C line = Err.
Proof.
  intros NS F H. unfold Scan. destruct (scanTokens C line) as [l| |] eqn:E; [|reflexivity|].
  - exfalso. exact (reads_runes C line l NS (proj1 (C89_reads C line l) E) F H).
  - exfalso. apply (C89_total C line). unfold Scan. rewrite E. reflexivity.
Qed.
Section Rows.
  Context {A : Type} (show : A -> text).
  Lemma inc_from_term idx shape : forall i, (0 <= i)%Z -> (i <= snd (inc_from i idx shape))%Z \/ snd (inc_from i idx shape) = (-1)%Z.
  Proof.
    revert shape. induction idx as [|k idx IH]; intros shape i Hi; [right; reflexivity|]. destruct shape as [|d shape]; [right; reflexivity|]. cbn [inc_from].
    destruct (k + 1 =? d)%Z; [|left; cbn; lia]. specialize (IH shape (i + 1)%Z ltac:(lia)). destruct (inc_from (i + 1) idx shape) as [r t]. cbn [snd] in *. lia.
  Qed.
  Lemma rows_nonempty xs : xs <> [] -> forall pad n idx shape, table_rows show pad n idx shape xs <> [].
  Proof. destruct xs as [|x xs]; [congruence|]. intros _ pad n idx shape. cbn [table_rows]. destruct (inc_from 0 idx shape). cbn [repeat app]. discriminate. Qed.
  Lemma rows_newline xs : forall pad n k idx c shape, (0 <= k < c)%Z -> (c - k < zlen xs)%Z ->
    exists pre rest, table_rows show pad n (k :: idx) (c :: shape) xs = pre ++ r_newline :: rest /\ rest <> [].
  Proof.
    induction xs as [|x xs IH]; intros pad n k idx c shape Hk Hl; [rewrite zlen_nil in Hl; lia|]. rewrite zlen_cons in Hl. cbn [table_rows inc_from].
    destruct (k + 1 =? c)%Z eqn:E.
    - pose proof (inc_from_term idx shape 1 ltac:(lia)) as T. change (0 + 1)%Z with 1%Z. destruct (inc_from 1 idx shape) as [r t] eqn:EI. cbn [snd] in T.
      assert (N0 : xs <> []) by (intros ->; rewrite zlen_nil in Hl; lia).
      pose proof (rows_nonempty xs N0 pad (S n) (0%Z :: r) (c :: shape)) as N1.
      destruct (0 <? t)%Z eqn:Et.
      + destruct (Z.to_nat t) as [|m] eqn:Em; [lia|]. cbn [repeat]. exists (repeat r_space (S (pad n)) ++ show x), (repeat r_newline m ++ table_rows show pad (S n) (0%Z :: r) (c :: shape) xs).
        split; [rewrite <- !app_assoc; reflexivity|]. intros E0. apply app_eq_nil in E0. apply N1, E0.
      + replace (t =? -1)%Z with true by lia. exists (repeat r_space (S (pad n)) ++ show x), (table_rows show pad (S n) (0%Z :: r) (c :: shape) xs).
        split; [rewrite <- !app_assoc; reflexivity|exact N1].
    - destruct (IH pad (S n) (k + 1)%Z idx c shape ltac:(lia) ltac:(lia)) as (pre & rest & E1 & N1).
      change (0 <? 0)%Z with false. change (0 =? -1)%Z with false. cbn iota. rewrite E1. exists (repeat r_space (S (pad n)) ++ show x ++ pre), rest. split; [rewrite <- !app_assoc; reflexivity|exact N1].
  Qed.
  Lemma rows_runes (P : Z -> Prop) xs : P r_space -> P r_newline -> Forall (fun x => Forall P (show x)) xs -> forall pad n idx shape, Forall P (table_rows show pad n idx shape xs).
  Proof.
    intros Ps Pn. induction 1 as [|x xs H _ IH]; intros pad n idx shape; [constructor|]. cbn [table_rows]. destruct (inc_from 0 idx shape) as [i t].
    assert (R : forall (r : Z) m, P r -> Forall P (repeat r m)) by (intros r m Pr; induction m; constructor; assumption).
    repeat (apply Forall_app; split); [apply R, Ps|exact H| |apply IH]. destruct (0 <? t)%Z; [apply R, Pn|]. destruct (t =? -1)%Z; repeat constructor. exact Pn.
  Qed.
  Lemma strip_runes (P : Z -> Prop) s : Forall P s -> Forall P (strip_newline s).
  Proof.
    intros F. unfold strip_newline. destruct (rev s) as [|r l] eqn:E; [exact F|]. destruct (r =? r_newline)%Z; [|exact F]. apply Forall_rev in F. rewrite E in F. apply Forall_rev. inversion F; assumption.
  Qed.
  Lemma strip_keeps pre rest : rest <> [] -> In r_newline (strip_newline (pre ++ r_newline :: rest)).
  Proof.
    intros N0. destruct (exists_last N0) as (r & x & ->). unfold strip_newline. rewrite rev_app_distr. cbn [rev]. rewrite rev_app_distr. cbn [rev app].
    assert (K : In r_newline (pre ++ r_newline :: r)) by (apply in_or_app; right; left; reflexivity).
    destruct (x =? r_newline)%Z.
    - apply -> in_rev. apply in_or_app. left. apply in_or_app. right. left. reflexivity.
    - apply in_or_app. right. left. reflexivity.
  Qed.
End Rows.
(* a matrix does not come back: its rows are on lines of their own, and ⍎ reads a single line *)
Theorem C156_matrix_refuted {B D X : Type} (L : lang D X) (G : grammar D) (C : scanner) (oshow : B -> text) quote pad r c (es : list (elt B)) :
  s_symbols C r_newline = None -> (2 <= r)%Z -> (1 <= c)%Z -> zlen es = (r * c)%Z -> Forall (fun e => match e with EBool _ | EInt _ => True | _ => False end) es ->
  forall n s, ExecuteText L G C n (tableArray (eltString oshow quote) pad (mkArr [r; c] es)) s = Some (Err, s).
Proof.
  intros NS Hr Hc Hl F n s. unfold ExecuteText, ParseLine. rewrite (C156_newline C); [reflexivity|exact NS| |].
  - cbn [tableArray dims elems]. apply strip_runes, rows_runes.
    + intros [H|[H|[H|[H|[]]]]]; discriminate H.
    + intros [H|[H|[H|[H|[]]]]]; discriminate H.
    + assert (Hn : forall rr, number_rune rr = true -> not_quoting rr) by (intros rr H [H2|[H2|[H2|[H2|[]]]]]; subst rr; discriminate H).
      eapply Forall_impl; [|exact F]. intros e He. destruct e as [b|z|t|a]; try contradiction; cbn [eltString].
      * destruct b; repeat constructor; apply Hn; reflexivity.
      * destruct (intString_runes z) as (_ & Fz & _). eapply Forall_impl; [|exact Fz]. exact Hn.
  - cbn [tableArray dims elems]. change (rev [r; c]) with [c; r]. change (zerosZ (length [r; c])) with [0; 0]%Z.
    destruct (rows_newline (eltString oshow quote) es pad 0 0 [0%Z] c [r] ltac:(lia)) as (pre & rest & E & N0).
    { rewrite Hl. nia. }
    rewrite E. apply strip_keeps, N0.
Qed.

(* A small language: integers, strings and vectors of them, with subtraction. *)
Inductive dv := DE (e : elt Empty_set) | DV (l : list dv).
Definition dv_minus (l r : dv) : dv :=
  match l, r with
  | DE (EInt a), DE (EInt b) => DE (EInt (a - b))
  | DE (EInt a), DV v => DV (map (fun d => match d with DE (EInt b) => DE (EInt (a - b)) | _ => d end) v)
  | DV u, DE (EInt b) => DV (map (fun d => match d with DE (EInt a) => DE (EInt (a - b)) | _ => d end) u)
  | _, _ => l
  end.
Definition dv_handler : handler dv unit :=
  mkHandler (fun _ l r => match l, r with Some (VD _), VD _ => Some (l, r) | _, _ => None end)
    (fun l r => match l, r with Some (VD l), VD r => CRet (Ok (VD (dv_minus l r))) | _, _ => CRet Err end) (fun _ _ => CRet Err).
Definition dv_lang : lang dv unit :=
  mkLang (fun s => if String.eqb s "-" then [dv_handler] else []) (fun _ => []) (fun _ _ _ => CRet Err) (DV []) (fun d => match d with DV _ => true | _ => false end)
    (fun l => DV (map (fun v => match v with VD d => d | _ => DV [] end) l)) (fun _ => None)
    (fun z => DE (EInt z)) (fun _ => None) (fun _ _ _ _ => CRet Err) (fun _ => DV []) (fun _ x => Ok x) (fun _ => true).
Definition dv_grammar : grammar dv :=
  mkGrammar (fun s => String.eqb s "-") (fun s => if String.eqb s "←" then Some false else None) (s_unicode demo_scanner)
    (fun w => option_map DE (towerParse (fun _ => None) w)) (fun s => DE (EString s)) (DV []).
(* quoting: a backslash before quotes and backslashes *)
Fixpoint q_body (s : text) : text := match s with [] => [] | r :: s' => if ((r =? r_dquote) || (r =? r_bslash))%Z then r_bslash :: r :: q_body s' else r :: q_body s' end.
Definition q_quote (s : text) : text := r_dquote :: q_body s ++ [r_dquote].
Fixpoint q_strip (s : text) : text := match s with [] => [] | r :: s' => if (r =? r_bslash)%Z then match s' with c :: t => c :: q_strip t | [] => [] end else r :: q_strip s' end.
Definition q_unquote (s : text) : option text := match s with _ :: s' => Some (q_strip (removelast s')) | [] => None end.
Definition dv_scanner : scanner := mkScanner (s_unicode demo_scanner) (fun r => if in_runes r [45; 8592]%Z then Some [r] else None) (fun _ => None) q_unquote.
Lemma q_quotes : quotes dv_scanner q_quote.
Proof.
  intros s. exists (q_body s). split; [reflexivity|]. split.
  - induction s as [|r s IH]; [constructor|]. cbn [q_body]. destruct ((r =? r_dquote) || (r =? r_bslash))%Z eqn:E; [apply esc_pair, IH|]. apply orb_false_iff in E. apply esc_plain; [lia|lia|exact IH].
  - unfold dv_scanner. cbn [s_unquote]. unfold q_unquote, q_quote. rewrite removelast_last. f_equal.
    induction s as [|r s IH]; [reflexivity|]. cbn [q_body]. destruct ((r =? r_dquote) || (r =? r_bslash))%Z eqn:E; cbn [q_strip].
    + change (r_bslash =? r_bslash)%Z with true. cbn iota. rewrite IH. reflexivity.
    + apply orb_false_iff in E. destruct E as (_ & E). rewrite E, IH. reflexivity.
Qed.
Lemma dv_proper : proper_symbols dv_scanner.
Proof.
  intros r H. cbn [s_symbols dv_scanner] in H. destruct (in_runes r [45; 8592]%Z) eqn:E; [|congruence]. unfold in_runes in E. cbn [existsb] in E.
  apply orb_prop in E. destruct E as [E|E]; [apply Z.eqb_eq in E; subst r; split; [reflexivity|discriminate]|]. apply orb_prop in E. destruct E as [E|E]; [|discriminate E]. apply Z.eqb_eq in E; subst r; split; [reflexivity|discriminate].
Qed.
Definition i_ (z : Z) : dv := DE (EInt z).
Definition dv0 : st dv unit := mkSt [[]] [] 1 [] Datatypes.tt.
(* A←4 5 6⋄2-A⋄(A-1)-3 in letters: a for ←, | for ⋄ *)
Definition dv_text (s : string) : text := map (fun r => if (r =? 97)%Z then 8592%Z else if (r =? 124)%Z then 8900%Z else r) (chars s).
Definition t_num (s : string) (z : Z) : token * dv := (Tok Number (chars s), i_ z).
Definition t_A : token := Tok Identifier [65%Z].
Definition t_minus : fn := Prim (Tok Symbol [45%Z]).
Definition dv_line : list (sent dv) :=
  [Mon (Assign t_A (Tok Symbol [8592%Z])) (Lit [t_num "4" 4; t_num "5" 5; t_num "6" 6]);
   Dya (Lit [t_num "2" 2]) t_minus (Var t_A);
   Dya (Par (Dya (Var t_A) t_minus (Lit [t_num "1" 1]))) t_minus (Lit [t_num "3" 3])].
Example C155_example :
  Forall (sent_ok dv_lang dv_grammar) dv_line /\ reads dv_scanner (dv_text "Aa4 5 6|2-A | (A-1)-3") (line_words dv_line) /\ no_command dv_scanner (line_words dv_line) /\
  exists s', session dv_lang dv_grammar dv_line dv0 (Ok Datatypes.tt) s' /\ out s' = [VD (DV [i_ (-2); i_ (-3); i_ (-4)]); VD (DV [i_ 0; i_ 1; i_ 2])].
Proof.
  assert (F : Forall (sent_ok dv_lang dv_grammar) dv_line).
  { assert (Li : forall s z, g_number dv_grammar (chars s) = Some (i_ z) -> is_literal dv_lang dv_grammar (t_num s z)) by (intros s z H; split; [left; split; [reflexivity|exact H]|reflexivity]).
    assert (VA : is_variable dv_grammar t_A) by (split; reflexivity).
    assert (PM : fn_ok dv_grammar t_minus) by (split; reflexivity).
    assert (PA : fn_ok dv_grammar (Assign t_A (Tok Symbol [8592%Z]))) by (split; [exact VA|]; split; [|reflexivity]; split; [reflexivity|]; split; [reflexivity|]; split; [reflexivity|discriminate]).
    unfold dv_line. constructor; [|constructor; [|constructor; [|constructor]]].
    - split; [exact PA|]. split; [discriminate|]. constructor; [|constructor; [|constructor; [|constructor]]]; apply Li; vm_compute; reflexivity.
    - split; [exact Logic.I|]. split; [|split; [exact PM|exact VA]]. split; [discriminate|]. constructor; [|constructor]. apply Li; vm_compute; reflexivity.
    - split; [exact Logic.I|]. split; [|split; [exact PM|]].
      + split; [exact Logic.I|]. split; [exact VA|]. split; [exact PM|]. split; [discriminate|]. constructor; [|constructor]. apply Li; vm_compute; reflexivity.
      + split; [discriminate|]. constructor; [|constructor]. apply Li; vm_compute; reflexivity. }
  assert (R : reads dv_scanner (dv_text "Aa4 5 6|2-A | (A-1)-3") (line_words dv_line)) by (apply C89_reads; vm_compute; reflexivity).
  assert (NC : no_command dv_scanner (line_words dv_line)) by (intros f c r _; reflexivity).
  split; [exact F|]. split; [exact R|]. split; [exact NC|].
  destruct (ParseAndEval dv_lang dv_grammar dv_scanner 20 (dv_text "Aa4 5 6|2-A | (A-1)-3") dv0) as [[o s']|] eqn:E; [|vm_compute in E; discriminate E].
  exists s'. assert (P := E). vm_compute in P. injection P as <- <-. split; [|reflexivity].
  apply (C155_line dv_lang dv_grammar dv_scanner dv_line _ ltac:(discriminate) F R NC). exists 20%nat. vm_compute. reflexivity.
Qed.
(* | is the diamond of this language: A is assigned, then the empty statement ends the line *)
Example C155_empty_example : exists s', ParseAndEval dv_lang dv_grammar dv_scanner 20 (dv_text "Aa4||Aa5") dv0 = Some (Err, s') /\
  exists s1, ParseAndEval dv_lang dv_grammar dv_scanner 20 (dv_text "Aa4") dv0 = Some (Ok Datatypes.tt, s1) /\ s' = s1.
Proof.
  destruct (ParseAndEval dv_lang dv_grammar dv_scanner 20 (dv_text "Aa4||Aa5") dv0) as [[o s']|] eqn:E; [|vm_compute in E; discriminate E].
  exists s'. assert (P := E). vm_compute in P. injection P as <- <-. split; [reflexivity|].
  destruct (ParseAndEval dv_lang dv_grammar dv_scanner 20 (dv_text "Aa4") dv0) as [[o s1]|] eqn:E2; [|vm_compute in E2; discriminate E2].
  exists s1. assert (P := E2). vm_compute in P. injection P as <- <-. split; reflexivity.
Qed.
(* the vector 7 ¯8, a string with a quote in it, and 1b *)
Definition es7 : list (elt Empty_set) := [EInt 7; EInt (-8); EString [105; 34; 115]; EBool true]%Z.
Definition no_show (e : Empty_set) : text := match e with end.
Example C156_example :
  text_of no_show q_quote es7 = [55; 32; 175; 56; 32; 34; 105; 92; 34; 115; 34; 32; 49; 98]%Z /\
  (exists n, ExecuteText dv_lang dv_grammar dv_scanner n (text_of no_show q_quote es7) dv0 = Some (Ok (VD (DV (map DE es7))), dv0)) /\
  Forall plain_element es7.
Proof.
  assert (F : Forall (@plain_element Empty_set) es7) by (repeat constructor; cbn; lia).
  split; [vm_compute; reflexivity|]. split; [|exact F].
  apply (C156_vector dv_lang dv_grammar dv_scanner no_show (fun _ => None) q_quote DE dv_proper q_quotes (fun _ => eq_refl) (fun _ => eq_refl) (fun _ => eq_refl) es7); [cbn; lia|exact F|].
  split; reflexivity.
Qed.
Example C156_matrix_example : s_symbols dv_scanner r_newline = None /\
  ExecuteText dv_lang dv_grammar dv_scanner 9 (tableArray (eltString no_show q_quote) (fun _ => 0%nat) (mkArr [2; 2]%Z [EInt 1; EInt 2; EInt 3; EInt 4]%Z)) dv0 = Some (Err, dv0).
Proof. split; [reflexivity|]. vm_compute. reflexivity. Qed.

Print Assumptions C155_line. Print Assumptions C155_empty_statement. Print Assumptions C155_execute. Print Assumptions C155_deterministic.
Print Assumptions C156_vector. Print Assumptions C156_scalar. Print Assumptions C156_single_refuted. Print Assumptions C156_newline. Print Assumptions C156_matrix_refuted.
