(* P_Parse.v -- proofs about brackets and lines. *)
From Verif Require Import Base M_Scan M_Syntax M_Parse S_Parse.
From Coq Require Import String List Bool ZArith Lia.
Import ListNotations.
Open Scope Z_scope.
Open Scope list_scope.

Lemma teqb_eq : forall a b, teqb a b = true <-> a = b.
Proof. intros a b. unfold teqb. destruct (ttype_eq_dec a b); split; congruence. Qed.
Lemma teqb_neq : forall a b, teqb a b = false <-> a <> b.
Proof. intros a b. unfold teqb. destruct (ttype_eq_dec a b); split; congruence. Qed.
Lemma teqb_refl : forall a, teqb a a = true.
Proof. intros a. apply teqb_eq. reflexivity. Qed.

(* ---------- nesting ---------- *)
Lemma nested_app : forall a b, nested a -> nested b -> nested (a ++ b).
Proof.
  induction 1 as [|t l H N IH|t u a l H Na IHa Nl IHl]; intros B; cbn [app]; [exact B|constructor; auto|].
  rewrite <- app_assoc. cbn [app]. apply nested_pair; auto.
Qed.
Lemma nested_one : forall t, ~ bracket (tt t) -> nested [t].
Proof. intros t H. constructor; [exact H|constructor]. Qed.
Definition notBracket (t : ttype) : bool :=
  match t with LeftParen | RightParen | LeftBrack | RightBrack | LeftBrace | RightBrace => false | _ => true end.
Lemma notBracket_spec : forall t, notBracket t = true -> ~ bracket t.
Proof. intros t H (u & [P|P]); destruct P; discriminate. Qed.
Lemma nested_flat : forall l, Forall (fun t => notBracket (tt t) = true) l -> nested l.
Proof. induction 1; constructor; auto. apply notBracket_spec. assumption. Qed.

Section Nest.
  Context {D : Type} (G : grammar D).
  (* the number of right minus left tokens *)
  Definition net (left right : ttype) (l : list token) : Z := count left l - count right l.
  Lemma count_cons : forall ty t l, count ty (t :: l) = (if teqb (tt t) ty then 1 else 0) + count ty l.
  Proof. intros ty t l. unfold count. cbn [filter]. destruct (teqb (tt t) ty); [rewrite zlen_cons|]; lia. Qed.
  Lemma count_app : forall ty a b, count ty (a ++ b) = count ty a + count ty b.
  Proof. intros ty a b. unfold count. rewrite filter_app. unfold zlen. rewrite app_length. lia. Qed.
  Lemma count_rev : forall ty l, count ty (rev l) = count ty l.
  Proof. induction l as [|t l IH]; [reflexivity|]. cbn [rev]. rewrite count_app, !count_cons, IH. change (count ty []) with 0. lia. Qed.

  Lemma pullMatching_spec : forall left right rt l inner rest, left <> right -> (0 < l)%nat ->
    pullMatching left right l rt = Some (inner, rest) ->
    exists t, rt = inner ++ t :: rest /\ tt t = left /\ net left right inner = Z.of_nat l - 1.
  Proof.
    intros left right. induction rt as [|t rt IH]; intros l inner rest NE L H; [discriminate|]. cbn [pullMatching] in H.
    destruct (teqb (tt t) Endl); [discriminate|].
    destruct (teqb (tt t) right) eqn:R.
    - destruct (pullMatching left right (S l) rt) as [[i r]|] eqn:E; [|discriminate]. injection H as <- <-.
      destruct (IH (S l) _ _ NE ltac:(lia) E) as (u & -> & U & N). exists u. repeat split; auto.
      unfold net in *. rewrite !count_cons, R.
      assert (X : teqb (tt t) left = false) by (apply teqb_eq in R; apply teqb_neq; congruence). rewrite X. lia.
    - destruct (teqb (tt t) left) eqn:X.
      + destruct l as [|[|l]]; [lia| |].
        * injection H as <- <-. exists t. repeat split. apply teqb_eq, X.
        * destruct (pullMatching left right (S l) rt) as [[i r]|] eqn:E; [|discriminate]. injection H as <- <-.
          destruct (IH (S l) _ _ NE ltac:(lia) E) as (u & -> & U & N). exists u. repeat split; auto.
          unfold net in *. rewrite !count_cons, R, X. lia.
      + destruct (pullMatching left right l rt) as [[i r]|] eqn:E; [|discriminate]. injection H as <- <-.
        destruct (IH l _ _ NE L E) as (u & -> & U & N). exists u. repeat split; auto.
        unfold net in *. rewrite !count_cons, R, X. lia.
  Qed.

  Lemma splitTokens_nonempty : forall at_ inc dec toks lv, splitTokens at_ inc dec lv toks <> [].
  Proof. induction toks as [|t toks IH]; intros lv; cbn [splitTokens]; [discriminate|]. destruct (_ && _); [discriminate|]. destruct (splitTokens _ _ _ _ toks) eqn:E; [discriminate|discriminate]. Qed.
  Lemma splitTokens_nested : forall at_ inc dec toks lv, notBracket at_ = true ->
    Forall nested (splitTokens at_ inc dec lv toks) -> nested toks.
  Proof.
    intros at_ inc dec toks lv A H.
    assert (X : forall toks lv a, Forall nested (match splitTokens at_ inc dec lv toks with p :: l => (a ++ p) :: l | [] => [] end) -> nested (a ++ toks)).
    { clear toks lv H. induction toks as [|t toks IH]; intros lv a H; cbn [splitTokens] in H.
      - inversion H; subst. assumption.
      - set (lv' := if existsb (teqb (tt t)) inc then lv + 1 else if existsb (teqb (tt t)) dec then lv - 1 else lv) in *. clearbody lv'.
        destruct ((lv' =? 0) && teqb (tt t) at_) eqn:Q.
        + inversion H as [|? ? N1 N2]; subst. rewrite app_nil_r in N1. apply nested_app; [exact N1|].
          constructor; [apply notBracket_spec; apply andb_prop in Q; destruct Q as [_ Q]; apply teqb_eq in Q; rewrite Q; exact A|].
          apply (IH lv' []). destruct (splitTokens at_ inc dec lv' toks); [constructor|exact N2].
        + replace (a ++ t :: toks) with ((a ++ [t]) ++ toks) by (rewrite <- app_assoc; reflexivity). apply (IH lv').
          pose proof (splitTokens_nonempty at_ inc dec toks lv') as NE. destruct (splitTokens at_ inc dec lv' toks); [congruence|].
          rewrite <- app_assoc. exact H. }
    apply (X toks lv []). pose proof (splitTokens_nonempty at_ inc dec toks lv). destruct (splitTokens _ _ _ _ _); [congruence|exact H].
  Qed.
  (* the last piece is empty if the last token separates *)
  Lemma splitTokens_last : forall at_ i d toks t lv, tt t = at_ -> at_ <> i -> at_ <> d -> i <> d ->
    lv + net i d toks = 0 ->
    exists l, splitTokens at_ [i] [d] lv (toks ++ [t]) = l ++ [[]].
  Proof.
    intros at_ i d. induction toks as [|x toks IH]; intros t lv T N1 N2 N3 L; cbn [app splitTokens existsb].
    - rewrite T. rewrite (proj2 (teqb_neq _ _) N1), (proj2 (teqb_neq _ _) N2). cbn [orb]. unfold net in L. cbn in L.
      replace lv with 0 by lia. rewrite teqb_refl. cbn. exists [[]]. reflexivity.
    - rewrite !orb_false_r. set (lv' := if teqb (tt x) i then lv + 1 else if teqb (tt x) d then lv - 1 else lv).
      destruct (IH t lv' T N1 N2 N3) as (l & E).
      { unfold net in *. rewrite !count_cons in L. subst lv'. destruct (teqb (tt x) i) eqn:X.
        - assert (teqb (tt x) d = false) by (apply teqb_neq; apply teqb_eq in X; congruence). rewrite H in L. lia.
        - destruct (teqb (tt x) d); lia. }
      rewrite E. destruct ((lv' =? 0) && teqb (tt x) at_); [exists ([] :: l); reflexivity|].
      destruct l as [|p l]; cbn [app]; [|exists ((x :: p) :: l); reflexivity].
      (* the last piece cannot start before the last token *)
      exfalso.
      assert (Y : forall toks lv, exists p r q, splitTokens at_ [i] [d] lv (toks ++ [t]) = p :: r :: q \/ splitTokens at_ [i] [d] lv (toks ++ [t]) = [p] /\ p <> []).
      { clear. induction toks as [|x toks IH]; intros lv; cbn [app splitTokens].
        - destruct (_ && _); [exists [], [], []; auto|exists [t], [], []; right; split; [reflexivity|discriminate]].
        - match goal with |- context [splitTokens _ _ _ ?v _] => destruct (IH v) as (p & r & q & [E|[E P]]); rewrite E end;
          destruct (_ && _).
          + exists [], p, (r :: q). auto.
          + exists (x :: p), r, q. auto.
          + exists [], p, []. auto.
          + exists (x :: p), [], []. right. split; [reflexivity|discriminate]. }
      destruct (Y toks lv') as (p & r & q & [EA | [EA P]]); rewrite EA in E; cbn in E; congruence.
  Qed.

  Lemma mapM_statement_nested : forall stmt l es,
    (forall rt r, stmt rt [] = Ok r -> nested (rev rt)) ->
    mapM (@statement D stmt) l = Ok es -> Forall nested l.
  Proof.
    intros stmt l es H. revert es. induction l as [|x l IH]; intros es E; [constructor|]. cbn [mapM] in E.
    unfold statement in E at 1. destruct (stmt (rev x) []) as [r| |] eqn:S; try discriminate. cbn [obind] in E.
    destruct (mapM (statement stmt) l) as [es'| |] eqn:M; try discriminate. constructor; [|eapply IH; reflexivity].
    rewrite <- (rev_involutive x). eapply H. exact S.
  Qed.
  Lemma subStatement_nested : forall stmt right inner i,
    (forall rt r, stmt rt [] = Ok r -> nested (rev rt)) ->
    (right = RightParen \/ right = RightBrack \/ right = RightBrace) ->
    net (left_of right) right inner = 0 ->
    subStatement G stmt right inner = Ok i -> nested (rev inner).
  Proof.
    intros stmt right inner i H R N S. unfold subStatement in S. destruct inner as [|t inner]; [constructor|].
    destruct R as [-> | [-> | ->]].
    - destruct (teqb (tt t) Semicolon) eqn:T.
      + unfold parseList in S. destruct (mapM _ _) as [es| |] eqn:M; try discriminate. clear S.
        apply mapM_statement_nested in M; [|exact H]. cbn [rev] in *.
        apply teqb_eq in T.
        destruct (splitTokens_last Semicolon LeftParen RightParen (rev inner) t 0 T) as (l & E); try discriminate.
        { unfold net in *. cbn [left_of] in N. rewrite !count_rev. rewrite !count_cons in N. rewrite T in N. cbn in N. lia. }
        rewrite E in M. rewrite removelast_last in M.
        apply (splitTokens_nested Semicolon [LeftParen] [RightParen] _ 0 eq_refl). rewrite E. apply Forall_app. split; [exact M|].
        repeat constructor.
      + destruct (stmt (t :: inner) []) as [r| |] eqn:E; try discriminate. eapply H. exact E.
    - unfold parseBrackets in S. destruct (mapM _ _) as [es| |] eqn:M; try discriminate.
      apply mapM_statement_nested in M; [|exact H]. eapply splitTokens_nested; [|exact M]. reflexivity.
    - unfold parseLambda in S. destruct (guards _ _) as [b| |] eqn:M; try discriminate. clear S.
      apply (splitTokens_nested Diamond [LeftBrace] [RightBrace] _ 0); [reflexivity|].
      set (l := splitTokens Diamond [LeftBrace] [RightBrace] 0 (rev (t :: inner))) in *. clearbody l.
      revert b M. induction l as [|x l IH]; intros b M; [constructor|]. cbn [guards] in M.
      destruct (guardExpr stmt x) as [gt| |] eqn:E; try discriminate. cbn [obind] in M.
      constructor.
      + unfold guardExpr in E. destruct (3 <? _); [discriminate|]. destruct (mapM _ _) as [es| |] eqn:M1; try discriminate.
        apply mapM_statement_nested in M1; [|exact H]. eapply splitTokens_nested; [|exact M1]. reflexivity.
      + destruct (snd gt); destruct l as [|y l]; try discriminate; [constructor|constructor|].
        destruct (guards stmt (y :: l)) as [b'| |] eqn:M2; try discriminate. eapply IH. reflexivity.
  Qed.

  Lemma collect_consumes : forall rt ar r, collect G rt ar = Ok r ->
    exists w, rt = w ++ snd r /\ Forall (fun t => notBracket (tt t) = true) w.
  Proof.
    induction rt as [|t rt IH]; intros ar r H; cbn [collect] in H.
    - injection H as <-. exists []. split; [reflexivity|constructor].
    - destruct (tt t) eqn:T; try (injection H as <-; exists []; split; [reflexivity|constructor]);
      try (match type of H with context [match g_number G ?x with _ => _ end] => destruct (g_number G x); [|discriminate] end);
      try (match type of H with context [if ?b then _ else _] => destruct b; [discriminate|] end);
      try (destruct (isVarname _) as [[] []]; try (injection H as <-; exists []; split; [reflexivity|constructor]));
      destruct (IH _ _ H) as (w & -> & F); exists (t :: w); (split; [reflexivity|constructor; [rewrite T; reflexivity|exact F]]).
  Qed.
  Lemma collectArray_consumes : forall rt e rest, collectArray G rt = Ok (e, rest) ->
    exists w, rt = w ++ rest /\ Forall (fun t => notBracket (tt t) = true) w.
  Proof.
    intros rt e rest H. unfold collectArray in H. destruct (collect G rt []) as [r| |] eqn:E; try discriminate.
    cbn [obind] in H. injection H as <- <-. eapply collect_consumes. exact E.
  Qed.

  Lemma parseStatement_nested : forall n rt st r, Forall (fun t => tt t <> Endl) rt ->
    parseStatement G n rt st = Ok r -> nested (rev rt).
  Proof.
    induction n as [|n IH]; intros rt st r F H; [discriminate|]. cbn [parseStatement] in H.
    destruct rt as [|t rt]; [constructor|].
    assert (PUSH : forall rest st' , Forall (fun t => tt t <> Endl) rest -> (let* st' := st' in parseStatement G n rest st') = Ok r -> nested (rev rest)).
    { intros rest st' F' E. destruct st' as [st'| |]; try discriminate. eapply IH; [exact F'|exact E]. }
    assert (ONE : notBracket (tt t) = true -> forall st', (let* st' := st' in parseStatement G n rt st') = Ok r -> nested (rev (t :: rt))).
    { intros B st' E. cbn [rev]. apply nested_app; [|apply nested_one, notBracket_spec, B]. inversion F; subst. eapply PUSH; eassumption. }
    assert (ARR : notBracket (tt t) = true -> forall k, (let* er := collectArray G (t :: rt) in let* st' := k er in parseStatement G n (snd er) st') = Ok r -> nested (rev (t :: rt))).
    { intros B k E. destruct (collectArray G (t :: rt)) as [[e rest]| |] eqn:C; try discriminate. cbn [obind snd] in E.
      destruct (collectArray_consumes _ _ _ C) as (w & W & FW). rewrite W, rev_app_distr. rewrite W in F. apply Forall_app in F. destruct F as [_ F2].
      apply nested_app; [|apply nested_flat, Forall_rev, FW]. eapply PUSH; [exact F2|exact E]. }
    assert (SUB : forall right, tt t = right -> (right = RightParen \/ right = RightBrack \/ right = RightBrace) ->
       match pullMatching (left_of right) right 1 rt with None => Err | Some (inner, rest) =>
         let* i := subStatement G (parseStatement G n) right inner in let* st' := reduce false (i :: st) in parseStatement G n rest st' end = Ok r ->
       nested (rev (t :: rt))).
    { intros right T R E. destruct (pullMatching (left_of right) right 1 rt) as [[inner rest]|] eqn:P; [|discriminate].
      destruct (subStatement G (parseStatement G n) right inner) as [i| |] eqn:S; try discriminate. cbn [obind] in E.
      apply pullMatching_spec in P; [|destruct R as [-> | [-> | ->]]; discriminate|lia].
      destruct P as (u & P & U & N).
      inversion F as [|? ? F1 F2]; subst x l. rewrite P in F2. apply Forall_app in F2. destruct F2 as [F2 F3]. inversion F3 as [|? ? F4 F5]; subst x l.
      rewrite P. cbn [rev]. rewrite rev_app_distr. cbn [rev]. rewrite <- !app_assoc. apply nested_app; [eapply PUSH; [exact F5|exact E]|].
      cbn [app]. apply nested_pair; [rewrite T, U; destruct R as [-> | [-> | ->]]; constructor| |constructor].
      (* the inner tokens have no Endl either *)
      apply (subStatement_nested (fun l s => if forallb (fun t => negb (teqb (tt t) Endl)) l then parseStatement G n l s else Panic) right inner i); [|exact R|lia|].
      - intros l0 r0 E0. destruct (forallb _ l0) eqn:B; [|discriminate]. eapply IH; [|exact E0].
        rewrite forallb_forall in B. apply Forall_forall. intros x X. apply B in X. apply negb_true_iff, teqb_neq in X. exact X.
      - (* the guarded parser agrees on pieces of inner *)
        rewrite <- S. assert (FI : Forall (fun t => tt t <> Endl) inner) by exact F2.
        assert (GA : forall l s, Forall (fun t => tt t <> Endl) l -> (if forallb (fun t => negb (teqb (tt t) Endl)) l then parseStatement G n l s else Panic) = parseStatement G n l s).
        { intros l s FL. replace (forallb (fun t => negb (teqb (tt t) Endl)) l) with true; [reflexivity|]. symmetry. apply forallb_forall.
          intros x X. rewrite Forall_forall in FL. apply negb_true_iff, teqb_neq, FL, X. }
        assert (SP : forall at_ inc dec lv toks, Forall (fun t => tt t <> Endl) toks -> Forall (Forall (fun t => tt t <> Endl)) (splitTokens at_ inc dec lv toks)).
        { clear. intros at_ inc dec lv toks F. revert lv. induction F as [|x l X F IH]; intros lv; cbn [splitTokens]; [repeat constructor|].
          match goal with |- context [splitTokens _ _ _ ?v _] => specialize (IH v) end.
          destruct (_ && _); [constructor; [constructor|exact IH]|]. destruct (splitTokens _ _ _ _ l); [repeat constructor; exact X|].
          inversion IH; subst. constructor; [constructor; assumption|assumption]. }
        assert (MA : forall l, Forall (Forall (fun t => tt t <> Endl)) l ->
          mapM (@statement D (fun l s => if forallb (fun t => negb (teqb (tt t) Endl)) l then parseStatement G n l s else Panic)) l = mapM (@statement D (parseStatement G n)) l).
        { clear - GA. induction 1 as [|x l X F IH]; [reflexivity|]. cbn [mapM]. rewrite IH. unfold statement at 1 3. rewrite GA; [reflexivity|apply Forall_rev, X]. }
        assert (RL : forall (A : Type) (P : A -> Prop) l, Forall P l -> Forall P (removelast l)).
        { clear. induction 1 as [|x l X F IH]; [constructor|]. cbn [removelast]. destruct l; constructor; assumption. }
        unfold subStatement. destruct inner as [|x inner]; [reflexivity|].
        destruct R as [-> | [-> | ->]].
        + destruct (teqb (tt x) Semicolon); [|rewrite GA; [reflexivity|exact FI]].
          unfold parseList. rewrite MA; [reflexivity|]. apply RL, SP, Forall_rev, FI.
        + unfold parseBrackets. rewrite MA; [reflexivity|]. apply SP, Forall_rev, FI.
        + unfold parseLambda. 
          assert (GU : forall l, Forall (Forall (fun t => tt t <> Endl)) l -> guards (fun l s => if forallb (fun t => negb (teqb (tt t) Endl)) l then parseStatement G n l s else Panic) l = guards (parseStatement G n) l).
          { clear - MA SP. induction 1 as [|y l Y F IH]; [reflexivity|]. cbn [guards]. rewrite IH. unfold guardExpr. rewrite MA; [reflexivity|]. apply SP, Y. }
          rewrite GU; [reflexivity|]. apply SP, Forall_rev, FI. }
    destruct (tt t) eqn:T; try discriminate.
    - inversion F; congruence.
    - destruct (g_primitive G _); [eapply ONE; [reflexivity|exact H]|]. destruct (g_operator G _); [|discriminate]. eapply ONE; [reflexivity|exact H].
    - apply (ARR eq_refl (fun er => reduce false (mkItem (fst er) noun :: st))), H.
    - apply (ARR eq_refl (fun er => reduce false (mkItem (fst er) noun :: st))), H.
    - apply (ARR eq_refl (fun er => reduce false (mkItem (fst er) noun :: st))), H.
    - destruct (isVarname _) as [[] []]; try discriminate.
      + eapply ONE; [reflexivity|exact H].
      + apply (ARR eq_refl (fun er => reduce false (mkItem (fst er) noun :: st))), H.
    - eapply SUB; [reflexivity|auto|exact H].
    - eapply SUB; [reflexivity|auto|exact H].
    - eapply SUB; [reflexivity|auto|exact H].
    - eapply ONE; [reflexivity|exact H].
  Qed.
  Lemma parse_statement_nested : forall toks r, Forall (fun t => tt t <> Endl) toks -> parse_statement G toks = Ok r -> nested toks.
  Proof.
    intros toks r F H. rewrite <- (rev_involutive toks). eapply parseStatement_nested; [apply Forall_rev, F|exact H].
  Qed.
  Lemma nextStatement_split : forall toks b a rest, nextStatement b toks = Ok (a, rest) -> 
    (toks = a /\ rest = []) \/ (exists t, tt t = Diamond /\ toks = a ++ t :: rest).
  Proof.
    induction toks as [|t toks IH]; intros b a rest H; cbn [nextStatement] in H.
    - injection H as <- <-. auto.
    - match type of H with context [if ?c <? 0 then _ else _] => set (b' := c) in * end. destruct (b' <? 0); [discriminate|].
      destruct ((b' =? 0) && teqb (tt t) Diamond) eqn:E.
      + injection H as <- <-. right. exists t. apply andb_prop in E. destruct E as [_ E]. apply teqb_eq in E. auto.
      + destruct (nextStatement b' toks) as [[x y]| |] eqn:N; try discriminate. cbn in H. injection H as <- <-.
        destruct (IH _ _ _ N) as [[-> ->]|(u & U & ->)]; [left; auto|right; exists u; auto].
  Qed.
  Lemma parseProgram_nested : forall n toks p, Forall (fun t => tt t <> Endl) toks -> parseProgram G n toks = Ok p -> nested toks.
  Proof.
    induction n as [|n IH]; intros toks p F H; [discriminate|]. cbn [parseProgram] in H.
    destruct toks as [|t toks]; [constructor|].
    destruct (nextStatement 0 (t :: toks)) as [[a rest]| |] eqn:N; try discriminate. cbn [obind fst snd] in H.
    destruct (parse_statement G a) as [i| |] eqn:S; try discriminate. cbn [obind] in H.
    destruct (parseProgram G n rest) as [p'| |] eqn:P; try discriminate.
    destruct (nextStatement_split _ _ _ _ N) as [[E ->]|(u & U & E)]; rewrite E in *.
    - eapply parse_statement_nested; eassumption.
    - apply Forall_app in F. destruct F as [F1 F2]. inversion F2; subst. apply nested_app; [eapply parse_statement_nested; eassumption|].
      constructor; [apply notBracket_spec; rewrite U; reflexivity|]. eapply IH; eassumption.
  Qed.
  Lemma parse_nested : forall toks p, Forall (fun t => tt t <> Endl) toks -> parse G toks = Ok p -> nested toks.
  Proof.
    intros toks p F H. unfold parse in H. destruct (parseProgram G _ toks) as [q| |] eqn:E; try discriminate. eapply parseProgram_nested; eassumption.
  Qed.
End Nest.
