(* P_Grammar.v -- the shape of the token lists of the grammar. *)
From Coq Require Import String List Bool ZArith Lia.
From Verif Require Import Base M_Scan M_Syntax M_Parse S_Parse S_Grammar P_Parse P_Lines P_Sentence P_Sentence2 P_Sentence3.
Import ListNotations.
Open Scope Z_scope.
Open Scope list_scope.

(* ---------- levels ---------- *)
Section Mode.
  Context (at_ : ttype) (inc dec : list ttype).
  Definition delta (t : token) : Z := if existsb (teqb (tt t)) inc then 1 else if existsb (teqb (tt t)) dec then -1 else 0.
  Fixpoint lev (l : list token) : Z := match l with [] => 0 | t :: l' => delta t + lev l' end.
  Definition mode : Prop :=
    (forall t, ~ bracket (tt t) -> delta t = 0) /\
    (forall t u, pair_of (tt t) (tt u) -> (delta t = 1 /\ delta u = -1) \/ (delta t = 0 /\ delta u = 0)) /\
    ~ bracket at_.
  Context (OM : mode).
  Lemma lev_app : forall a b, lev (a ++ b) = lev a + lev b.
  Proof. induction a as [|t a IH]; intros b; cbn; [reflexivity|]. rewrite IH. lia. Qed.
  Lemma lev_nested : forall l, nested l -> lev l = 0 /\ forall a b, l = a ++ b -> 0 <= lev a.
  Proof.
    destruct OM as (O1 & O2 & _).
    induction 1 as [|t l NB N IH|t u a l P Na IHa Nl IHl].
    - split; [reflexivity|]. intros a b E. destruct a; [cbn; lia|discriminate].
    - cbn [lev]. rewrite (O1 t NB). destruct IH as [I1 I2]. split; [lia|]. intros a b E. destruct a as [|x a]; [cbn; lia|]. cbn in E. injection E as <- E.
      cbn [lev]. rewrite (O1 t NB). specialize (I2 _ _ E). lia.
    - destruct IHa as [A1 A2], IHl as [L1 L2]. specialize (O2 _ _ P). split.
      + cbn [lev]. rewrite lev_app. cbn [lev]. lia.
      + intros x y E. destruct x as [|z x]; [cbn; lia|]. cbn in E. injection E as <- E. cbn [lev].
        apply prefix_app in E. destruct E as [[c E]|[c [-> E]]]; [specialize (A2 _ _ E); lia|]. rewrite lev_app, A1.
        destruct c as [|v c]; [cbn; lia|]. cbn in E. injection E as <- E. cbn [lev]. specialize (L2 _ _ E). lia.
  Qed.
  Definition sealed (l : list token) : Prop := forall a t b, l = a ++ t :: b -> tt t = at_ -> 0 < lev a.
  Lemma sealed_nil : sealed [].
  Proof. intros a t b E. destruct a; discriminate. Qed.
  Lemma sealed_one : forall t, tt t <> at_ -> sealed [t].
  Proof. intros t H a x b E X. destruct a as [|? [|? ?]]; try discriminate. injection E as -> _. congruence. Qed.
  Lemma sealed_app : forall a b, lev a = 0 -> sealed a -> sealed b -> sealed (a ++ b).
  Proof.
    intros a b L A B x t y E T. replace (x ++ t :: y) with ((x ++ [t]) ++ y) in E by (rewrite <- app_assoc; reflexivity).
    apply prefix_app in E. destruct E as [[c E]|[c [E1 E2]]].
    - apply (A x t c); [|exact T]. rewrite E, <- app_assoc. reflexivity.
    - destruct c as [|z c] using rev_ind.
      + rewrite app_nil_r in E1. apply (A x t []); auto.
      + clear IHc. rewrite app_assoc in E1. apply app_inj_tail in E1. destruct E1 as [-> ->]. rewrite lev_app, L.
        assert (0 < lev c); [|lia]. apply (B c z y); [|exact T]. rewrite E2, <- app_assoc. reflexivity.
  Qed.
  Lemma wrap_split : forall (t u : token) l a x b, t :: l ++ [u] = a ++ x :: b ->
    (a = [] /\ x = t) \/ (exists a' b', a = t :: a' /\ l = a' ++ x :: b') \/ (a = t :: l /\ x = u).
  Proof.
    intros t u l a x b E. destruct a as [|y a]; cbn in E; injection E as -> E; [auto|]. right.
    destruct b as [|z b] using rev_ind.
    - apply app_inj_tail in E. destruct E as [-> ->]. auto.
    - clear IHb. replace (a ++ x :: b ++ [z]) with ((a ++ x :: b) ++ [z]) in E by (rewrite <- app_assoc; reflexivity).
      apply app_inj_tail in E. destruct E as [-> _]. left. eauto.
  Qed.
  Lemma sealed_wrap_own : forall t u l, tt t <> at_ -> tt u <> at_ -> delta t = 1 -> nested l -> sealed (t :: l ++ [u]).
  Proof.
    intros t u l T U DT NL a x b E X. destruct (wrap_split _ _ _ _ _ _ E) as [[-> ->]|[(a' & b' & -> & EL)|[-> ->]]]; [congruence| |congruence].
    cbn [lev]. rewrite DT. destruct (lev_nested _ NL) as [_ P]. specialize (P _ _ EL). lia.
  Qed.
  Lemma sealed_wrap : forall t u l, tt t <> at_ -> tt u <> at_ -> delta t = 0 -> sealed l -> sealed (t :: l ++ [u]).
  Proof.
    intros t u l T U DT NL a x b E X. destruct (wrap_split _ _ _ _ _ _ E) as [[-> ->]|[(a' & b' & -> & EL)|[-> ->]]]; [congruence| |congruence].
    cbn [lev]. rewrite DT. specialize (NL _ _ _ EL X). lia.
  Qed.
  Lemma sealed_sep : forall ty parts l, separated ty parts l -> ty <> at_ -> ~ bracket ty -> Forall nested parts -> Forall sealed parts -> sealed l.
  Proof.
    intros ty parts l H. induction H as [p|p s ps l S H IH]; intros NT NB FN FS; inversion FS as [|? ? S1 S2]; subst; [assumption|].
    inversion FN as [|? ? N1 N2]; subst. apply sealed_app; [apply lev_nested, N1|exact S1|]. change (s :: l) with ([s] ++ l).
    apply sealed_app; [|apply sealed_one; congruence|auto]. cbn. rewrite (proj1 OM); [reflexivity|exact NB].
  Qed.
  Lemma sealed_term : forall ty parts l, terminated ty parts l -> ty <> at_ -> ~ bracket ty -> Forall nested parts -> Forall sealed parts -> sealed l.
  Proof.
    intros ty parts l H. induction H as [|p s ps l S H IH]; intros NT NB FN FS; [apply sealed_nil|]. inversion FS as [|? ? S1 S2]; subst.
    inversion FN as [|? ? N1 N2]; subst. apply sealed_app; [apply lev_nested, N1|exact S1|]. change (s :: l) with ([s] ++ l).
    apply sealed_app; [|apply sealed_one; congruence|auto]. cbn. rewrite (proj1 OM); [reflexivity|exact NB].
  Qed.
  (* the tokens are split at the separators *)
  Lemma split_part : forall l b lv r p, lev l = - lv -> (forall a t c, l = a ++ t :: c -> tt t = at_ -> 0 < lv + lev a) ->
    splitTokens at_ inc dec 0 b = r :: p -> splitTokens at_ inc dec lv (l ++ b) = (l ++ r) :: p.
  Proof.
    induction l as [|t l IH]; intros b lv r p L S E.
    - cbn in L. replace lv with 0 by lia. exact E.
    - cbn [app splitTokens]. change (if existsb (teqb (tt t)) inc then lv + 1 else if existsb (teqb (tt t)) dec then lv - 1 else lv)
        with (let d := delta t in if existsb (teqb (tt t)) inc then lv + 1 else if existsb (teqb (tt t)) dec then lv - 1 else lv).
      assert (EQ : (if existsb (teqb (tt t)) inc then lv + 1 else if existsb (teqb (tt t)) dec then lv - 1 else lv) = lv + delta t)
        by (unfold delta; destruct (existsb _ inc); [lia|]; destruct (existsb _ dec); lia). cbn zeta. rewrite EQ.
      rewrite (IH b (lv + delta t) r p); [|cbn in L; lia| |exact E].
      + assert (X : ((lv + delta t =? 0) && teqb (tt t) at_) = false); [|rewrite X; reflexivity].
        apply andb_false_iff. destruct (teqb (tt t) at_) eqn:T; [left|right; reflexivity]. apply teqb_eq in T.
        specialize (S [] t l eq_refl T). cbn in S. rewrite (proj1 OM) by (rewrite T; apply (proj2 (proj2 OM))). lia.
      + intros a x c -> X. specialize (S (t :: a) x c eq_refl X). cbn in S. lia.
  Qed.
  Lemma split_sep : forall parts l, separated at_ parts l -> Forall nested parts -> Forall sealed parts -> splitTokens at_ inc dec 0 l = parts.
  Proof.
    intros parts l H. induction H as [p|p s ps l S H IH]; intros FN FS; inversion FS as [|? ? S1 S2]; subst; inversion FN as [|? ? N1 N2]; subst.
    - rewrite <- (app_nil_r p) at 1. rewrite (split_part p [] 0 [] []); [rewrite app_nil_r; reflexivity|rewrite (proj1 (lev_nested _ N1)); reflexivity| |reflexivity].
      intros a t c E T. apply (S1 _ _ _ E T).
    - rewrite (split_part p (s :: l) 0 [] ps); [rewrite app_nil_r; reflexivity|rewrite (proj1 (lev_nested _ N1)); reflexivity|intros a t c E T; apply (S1 _ _ _ E T)|].
      cbn [splitTokens]. assert (DS : delta s = 0) by (apply (proj1 OM); rewrite S; apply (proj2 (proj2 OM))).
      assert (EQ : (if existsb (teqb (tt s)) inc then 0 + 1 else if existsb (teqb (tt s)) dec then 0 - 1 else 0) = 0)
        by (unfold delta in DS; destruct (existsb _ inc); [lia|]; destruct (existsb _ dec); lia).
      rewrite EQ. cbn [Z.eqb andb]. rewrite S, teqb_refl. rewrite IH by assumption. reflexivity.
  Qed.
End Mode.

Ltac modes := split; [|split]; [intros t H; unfold delta; destruct (tt t); try reflexivity; exfalso; apply H; eexists; (left; constructor) || (right; constructor)
  |intros t u H; unfold delta; inversion H; cbn; auto|apply notBracket_spec; reflexivity].
Notation semi := (sealed Semicolon [LeftParen; LeftBrack] [RightParen; RightBrack]).
Notation dia := (sealed Diamond [LeftBrace] [RightBrace]).
Notation col := (sealed Colon [LeftBrace] [RightBrace]).
Lemma mode_semi : mode Semicolon [LeftParen; LeftBrack] [RightParen; RightBrack].
Proof. modes. Qed.
Lemma mode_list : mode Semicolon [LeftParen] [RightParen].
Proof. modes. Qed.
Lemma mode_dia : mode Diamond [LeftBrace] [RightBrace].
Proof. modes. Qed.
Lemma mode_col : mode Colon [LeftBrace] [RightBrace].
Proof. modes. Qed.

Definition no_endl (l : list token) : Prop := Forall (fun t => tt t <> Endl) l.
Record shape3 (l : list token) : Prop := mkShape3 { h_nested : nested l; h_endl : no_endl l; h_semi : semi l; h_dia : dia l }.
Definition shape (l : list token) : Prop := shape3 l /\ col l.
Lemma shape_nil : shape [].
Proof. split; [split; [constructor|constructor|apply sealed_nil|apply sealed_nil]|apply sealed_nil]. Qed.
Definition inert (t : ttype) : Prop := ~ bracket t /\ t <> Endl /\ t <> Semicolon /\ t <> Diamond /\ t <> Colon.
Lemma shape_one : forall t, inert (tt t) -> shape [t].
Proof.
  intros t (B & E & S & DD & CC). split; [split|].
  - apply nested_one, B.
  - constructor; [exact E|constructor].
  - apply sealed_one, S.
  - apply sealed_one, DD.
  - apply sealed_one, CC.
Qed.
Lemma shape_app : forall a b, shape a -> shape b -> shape (a ++ b).
Proof.
  intros a b [[N1 E1 S1 D1] C1] [[N2 E2 S2 D2] C2]. split; [split|].
  - apply nested_app; assumption.
  - apply Forall_app. split; assumption.
  - apply sealed_app; auto. apply (lev_nested Semicolon _ _ mode_semi), N1.
  - apply sealed_app; auto. apply (lev_nested Diamond _ _ mode_dia), N1.
  - apply sealed_app; auto. apply (lev_nested Colon _ _ mode_col), N1.
Qed.
Lemma nested_wrap : forall t u l, pair_of (tt t) (tt u) -> nested l -> nested (t :: l ++ [u]).
Proof. intros t u l P N. apply nested_pair; [exact P|exact N|constructor]. Qed.
Lemma endl_wrap : forall t u l, pair_of (tt t) (tt u) -> no_endl l -> no_endl (t :: l ++ [u]).
Proof. intros t u l P N. constructor; [inversion P; congruence|]. apply Forall_app. split; [exact N|]. constructor; [inversion P; congruence|constructor]. Qed.
Lemma nested_sep : forall ty parts l, separated ty parts l -> ~ bracket ty -> Forall nested parts -> nested l.
Proof.
  intros ty parts l H. induction H as [p|p s ps l S H IH]; intros B F; inversion F; subst; [assumption|].
  apply nested_app; [assumption|]. constructor; [exact B|auto].
Qed.
Lemma endl_sep : forall ty parts l, separated ty parts l -> ty <> Endl -> Forall no_endl parts -> no_endl l.
Proof.
  intros ty parts l H. induction H as [p|p s ps l S H IH]; intros B F; inversion F; subst; [assumption|].
  apply Forall_app. split; [assumption|]. constructor; [exact B|auto]. apply IH; assumption.
Qed.
Lemma term_sep : forall ty parts l, terminated ty parts l -> parts <> [] -> separated ty (parts ++ [[]]) l.
Proof.
  intros ty parts l H. induction H as [|p s ps l S H IH]; intros NE; [congruence|]. cbn [app]. apply sep_more; [exact S|].
  destruct ps as [|q ps]; [inversion H; subst; apply sep_one|]. apply IH. discriminate.
Qed.
Lemma Forall_proj : forall (A : Type) (P Q : A -> Prop) l, (forall x, P x -> Q x) -> Forall P l -> Forall Q l.
Proof. intros A P Q l H F. induction F; constructor; auto. Qed.
(* parts in parentheses or brackets *)
Lemma shape_parts : forall t u parts l, (tt t = LeftParen /\ tt u = RightParen) \/ (tt t = LeftBrack /\ tt u = RightBrack) ->
  separated Semicolon parts l -> Forall shape parts -> shape (t :: l ++ [u]).
Proof.
  intros t u parts l TU S F.
  assert (P : pair_of (tt t) (tt u)) by (destruct TU as [[-> ->]|[-> ->]]; constructor).
  assert (FN : Forall nested parts) by (eapply Forall_proj; [|exact F]; intros x [X _]; apply X).
  assert (NL : nested l) by (eapply nested_sep; [exact S|apply notBracket_spec; reflexivity|exact FN]).
  split; [split|].
  - apply nested_wrap; assumption.
  - apply endl_wrap; [exact P|]. eapply endl_sep; [exact S|discriminate|]. eapply Forall_proj; [|exact F]. intros x [X _]. apply X.
  - apply sealed_wrap_own; try assumption; try (destruct TU as [[T U]|[T U]]; rewrite ?T, ?U; discriminate); [apply mode_semi|].
    unfold delta. destruct TU as [[-> _]|[-> _]]; reflexivity.
  - apply sealed_wrap; try (destruct TU as [[T U]|[T U]]; rewrite ?T, ?U; discriminate); [unfold delta; destruct TU as [[-> _]|[-> _]]; reflexivity|].
    eapply sealed_sep; [apply mode_dia|exact S|discriminate|apply notBracket_spec; reflexivity|exact FN|]. eapply Forall_proj; [|exact F]. intros x [X _]. apply X.
  - apply sealed_wrap; try (destruct TU as [[T U]|[T U]]; rewrite ?T, ?U; discriminate); [unfold delta; destruct TU as [[-> _]|[-> _]]; reflexivity|].
    eapply sealed_sep; [apply mode_col|exact S|discriminate|apply notBracket_spec; reflexivity|exact FN|]. eapply Forall_proj; [|exact F]. intros x [_ X]. apply X.
Qed.
Lemma shape_braces : forall t u parts l, tt t = LeftBrace -> tt u = RightBrace ->
  separated Diamond parts l -> Forall shape3 parts -> shape (t :: l ++ [u]).
Proof.
  intros t u parts l T U S F. assert (P : pair_of (tt t) (tt u)) by (rewrite T, U; constructor).
  assert (FN : Forall nested parts) by (eapply Forall_proj; [|exact F]; intros x X; apply X).
  assert (NL : nested l) by (eapply nested_sep; [exact S|apply notBracket_spec; reflexivity|exact FN]).
  split; [split|].
  - apply nested_wrap; assumption.
  - apply endl_wrap; [exact P|]. eapply endl_sep; [exact S|discriminate|]. eapply Forall_proj; [|exact F]. intros x X. apply X.
  - apply sealed_wrap; try (rewrite ?T, ?U; discriminate); [unfold delta; rewrite T; reflexivity|].
    eapply sealed_sep; [apply mode_semi|exact S|discriminate|apply notBracket_spec; reflexivity|exact FN|]. eapply Forall_proj; [|exact F]. intros x X. apply X.
  - apply sealed_wrap_own; try (rewrite ?T, ?U; discriminate); [apply mode_dia|unfold delta; rewrite T; reflexivity|exact NL].
  - apply sealed_wrap_own; try (rewrite ?T, ?U; discriminate); [apply mode_col|unfold delta; rewrite T; reflexivity|exact NL].
Qed.
Lemma shape_guard : forall parts l, separated Colon parts l -> Forall shape parts -> shape3 l.
Proof.
  intros parts l S F.
  assert (FN : Forall nested parts) by (eapply Forall_proj; [|exact F]; intros x [X _]; apply X).
  split.
  - eapply nested_sep; [exact S|apply notBracket_spec; reflexivity|exact FN].
  - eapply endl_sep; [exact S|discriminate|]. eapply Forall_proj; [|exact F]. intros x [X _]. apply X.
  - eapply sealed_sep; [apply mode_semi|exact S|discriminate|apply notBracket_spec; reflexivity|exact FN|]. eapply Forall_proj; [|exact F]. intros x [X _]. apply X.
  - eapply sealed_sep; [apply mode_dia|exact S|discriminate|apply notBracket_spec; reflexivity|exact FN|]. eapply Forall_proj; [|exact F]. intros x [X _]. apply X.
Qed.
Ltac ine := unfold inert; match goal with H : tt ?t = _ |- _ => rewrite H end; split; [apply notBracket_spec; reflexivity|repeat split; discriminate].

Section Shapes.
  Context {D : Type} (G : grammar D).
  Local Notation expr := (expr D).
  Local Notation piece := (piece D).
  Lemma word_N : forall (l : list piece) w, word l w -> forall e, w = N e -> l = [N e].
  Proof. intros l w H e E. destruct H; try discriminate. subst. reflexivity. Qed.
  Lemma words_N : forall (l : list piece) ws, words l ws -> forall e, In (N e) ws -> In (N e) l.
  Proof.
    induction 1 as [|a w b ws W H IH]; intros e I; [destruct I|]. apply in_or_app. destruct I as [E|I]; [left|right; auto].
    rewrite (word_N _ _ W e E). left. reflexivity.
  Qed.
  Lemma sentence_proper : forall (ps : list piece) p, sentence ps p -> Forall proper ps -> proper p.
  Proof.
    intros ps p H F. destruct H as [ps ws e W VO|ps f W|ps fs W L|ps a fs W L EV]; try exact I.
    destruct VO as [e| |]; try exact I. rewrite Forall_forall in F. apply F. eapply words_N; [exact W|]. left. reflexivity.
  Qed.
  Lemma sentence_nonempty : forall (ps : list piece) p, sentence ps p -> ps <> [].
  Proof.
    intros ps p H ->. assert (W : forall ws : list piece, words [] ws -> ws = []).
    { intros ws W. inversion W as [|a w b ws' WD WS E1]; [reflexivity|]. exfalso. apply app_eq_nil in E1. destruct E1 as [-> _].
      inversion WD as [x X E|l w' op X E|l w' op x X Y E]; subst; try discriminate; destruct l; discriminate. }
    inversion H as [? ws e WD VO|? f WD|? fs WD L|? a fs WD L EV]; subst; apply W in WD; try discriminate.
    - subst ws. inversion VO.
    - destruct fs; [cbn in L; lia|discriminate].
  Qed.
  Definition not_idx_expr (e : expr) : Prop := forall l, e <> EIdx l.
  Lemma result_not_idx : forall p : piece, proper p -> not_idx_expr (result p).
  Proof.
    intros p P l E. destruct p as [e|f|op|op]; cbn in E; try discriminate.
    - subst. exact P.
    - destruct f; try discriminate. destruct l0 as [|[| | |g| | |] [|b [|]]]; try discriminate; destruct g; try discriminate.
      destruct (_ =? _)%string; discriminate.
  Qed.
  Lemma atom_inert : forall t es, atom G t es -> inert (tt t) /\ in_array G t.
  Proof. intros t es H. unfold in_array. destruct H; (split; [ine|tauto]). Qed.
  Lemma atoms_shape : forall toks es, atoms G toks es -> shape toks.
  Proof.
    induction 1 as [|t es l fs A AS IH C]; [apply shape_nil|]. change (t :: l) with ([t] ++ l). apply shape_app; [|exact IH].
    apply shape_one. eapply atom_inert, A.
  Qed.
  Lemma atoms_proper : forall toks es, atoms G toks es -> Forall (fun e => match e with EConst _ | EVar _ => True | _ => False end) es.
  Proof.
    induction 1 as [|t es l fs A AS IH C]; [constructor|]. apply Forall_app. split; [|exact IH].
    destruct A; try (repeat constructor). apply Forall_forall. intros x X. apply in_map_iff in X. destruct X as (r & <- & _). exact I.
  Qed.
  Lemma array_proper : forall toks es, atoms G toks es -> proper (N (array_value G es)).
  Proof.
    intros toks es A. apply atoms_proper in A. destruct es as [|e [|f es]]; try exact I. inversion A as [|? ? H _]; subst. cbn.
    destruct e; try exact I; destruct H.
  Qed.
  Lemma grammar_shape :
    (forall toks e, reading G toks e -> shape toks /\ not_idx_expr (or_empty G e)) /\
    (forall toks p, phrase G toks p -> shape toks /\ proper p /\ toks <> []) /\
    (forall toks ps, chunks G toks ps -> shape toks /\ Forall proper ps /\ (ps <> [] -> toks <> [])) /\
    (forall nx toks ps, chunk G nx toks ps -> shape toks /\ Forall proper ps /\ toks <> [] /\ ps <> []) /\
    (forall toks x, base G toks x -> shape toks /\ proper x /\ toks <> []) /\
    (forall toks es, brackets G toks es -> shape toks /\ Forall not_idx_expr es) /\
    (forall parts es, readings G parts es -> Forall shape parts /\ Forall (fun e => not_idx_expr (or_empty G e)) es) /\
    (forall toks g, guarded G toks g -> shape3 toks) /\
    (forall parts gs, body G parts gs -> Forall shape3 parts).
  Proof.
    apply grammar_ind.
    - split; [apply shape_nil|discriminate].
    - intros toks p _ (S & P & _). split; [exact S|]. apply result_not_idx, P.
    - intros toks ps p _ (S & P & NE) SE _ _. split; [exact S|]. split; [eapply sentence_proper; eassumption|]. apply NE. eapply sentence_nonempty, SE.
    - split; [apply shape_nil|]. split; [constructor|congruence].
    - intros a ps b qs _ (S1 & P1 & N1 & N1') _ (S2 & P2 & N2) _. split; [apply shape_app; assumption|]. split; [apply Forall_app; auto|].
      intros _ E. apply app_eq_nil in E. destruct E as [E _]. contradiction.
    - intros nx toks x _ (S & P & N). split; [exact S|]. split; [constructor; auto|]. split; [exact N|discriminate].
    - intros nx t x O. split; [apply shape_one; destruct O; ine|]. split; [|split; discriminate]. constructor; [destruct O; exact I|constructor].
    - intros nx toks e b es _ (S1 & P1 & N1) _ (S2 & _). split; [apply shape_app; assumption|]. split; [constructor; [exact I|constructor]|]. split; [|discriminate].
      intros E. apply app_eq_nil in E. destruct E as [E _]. contradiction.
    - intros nx t b a T PR _ (S2 & _). split; [change (t :: b) with ([t] ++ b); apply shape_app; [apply shape_one; ine|exact S2]|].
      split; [constructor; [exact I|constructor]|]. split; discriminate.
    - intros nx t x b a O _ (S2 & NI) NF. split; [change (t :: b) with ([t] ++ b); apply shape_app; [apply shape_one; destruct O; ine|exact S2]|].
      split; [|split; discriminate]. constructor; [destruct O; exact I|]. constructor; [exact I|]. constructor; [|constructor].
      inversion NI as [|? ? NA _]; subst. destruct a; try exact I; [eapply NF; reflexivity|eapply NA; reflexivity].
    - intros toks es NE A. split; [eapply atoms_shape, A|]. split; [eapply array_proper, A|exact NE].
    - intros t T P. split; [apply shape_one; ine|]. split; [exact I|discriminate].
    - intros t T P. split; [apply shape_one; ine|]. split; [exact I|discriminate].
    - intros t T. split; [apply shape_one; ine|]. split; [exact I|discriminate].
    - intros t toks u p T U _ (S & P & NE) _. split; [|split; [exact P|discriminate]].
      eapply (shape_parts t u [toks]); [auto|apply sep_one|repeat constructor; apply S].
    - intros t toks u parts es T U NE TM _ _ (S & _). split; [|split; [exact I|discriminate]].
      eapply shape_parts; [auto|apply term_sep; eassumption|]. apply Forall_app. split; [exact S|]. repeat constructor; apply shape_nil.
    - intros t u T U. split; [|split; [exact I|discriminate]]. apply (shape_braces t u [[]] []); auto; [apply sep_one|]. repeat constructor; apply sealed_nil.
    - intros t toks u parts gs T U NE S _ B. split; [|split; [exact I|discriminate]]. eapply shape_braces; eassumption.
    - intros t u T U. split; [|constructor]. apply (shape_parts t u [[]] []); auto; [apply sep_one|]. repeat constructor; apply sealed_nil.
    - intros t toks u parts es T U NE S _ (F & NI). split; [eapply shape_parts; eauto|]. clear - NI. induction NI; constructor; auto.
    - split; constructor.
    - intros part e parts es _ (S & NI) _ (F & NI'). split; constructor; assumption.
    - intros part e _ (S & _). apply S.
    - intros part pc pe c e S _ (S1 & _) _ (S2 & _). eapply shape_guard; [exact S|]. repeat constructor; try apply S1; apply S2.
    - repeat constructor; apply sealed_nil.
    - intros part g _ S _. constructor; [exact S|constructor].
    - intros part pc pe pt c e t S _ (S1 & _) _ (S2 & _) _ (S3 & _). constructor; [|constructor]. eapply shape_guard; [exact S|]. repeat constructor; try apply S1; try apply S2; apply S3.
    - intros part g parts gs _ S _ F. constructor; assumption.
  Qed.
End Shapes.
