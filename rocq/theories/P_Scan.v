(* P_Scan.v -- proofs about the tokenizer. *)
From Verif Require Import Base M_Scan S_Scan.
From Coq Require Import ZArith List Bool Lia ZifyBool.
Import ListNotations.
Open Scope Z_scope.

Ltac runes := unfold number_start, tick_end, number_rune, blank, starts_special, punctuation, AllowedInVarname, IsLetter, IsNumber, IsSpace, technical, digit, rune_range, in_runes,
  r_quote, r_dquote, r_tick, r_bslash, r_slash, r_dot, r_macron, r_underscore, r_quad, r_alpha, r_omega, r_arrow, r_lamp, r_diamond, r_nabla in *; cbn [existsb] in *.

Ltac dif := repeat match goal with
  | H : context [if ?b then _ else _] |- _ => destruct b eqn:?
  | |- context [if ?b then _ else _] => destruct b eqn:? end.
Ltac rlia := runes; dif; try discriminate; lia.

Section Proofs.
  Context (C : scanner).
  Local Notation U := (s_unicode C).

  (* --- numbers --- *)
  Lemma ScanNumber_app : forall w rest, Forall (fun r => number_rune r = true) w -> number_rune (hd 0 rest) = false ->
    ScanNumber (w ++ rest) = (w, rest).
  Proof.
    induction w as [|r w IH]; intros rest F H; cbn.
    - destruct rest as [|x rest]; [reflexivity|]. cbn in *. rewrite H. reflexivity.
    - inversion_clear F. rewrite H0, IH; auto.
  Qed.
  Lemma ScanNumber_inv : forall s w rest, ScanNumber s = (w, rest) ->
    s = w ++ rest /\ Forall (fun r => number_rune r = true) w /\ number_rune (hd 0 rest) = false.
  Proof.
    induction s as [|r s IH]; intros w rest H; cbn in H.
    - injection H as <- <-. repeat split; constructor.
    - destruct (number_rune r) eqn:N.
      + destruct (ScanNumber s) as [w' rest'] eqn:E. injection H as <- <-.
        destruct (IH _ _ eq_refl) as (-> & F & G). repeat split; auto.
      + injection H as <- <-. repeat split; auto.
  Qed.
  (* --- backtick --- *)
  Lemma readTick_app : forall w rest, Forall (fun r => tick_end C r = false) w -> (rest = [] \/ tick_end C (hd 0 rest) = true) ->
    readTick C (w ++ rest) = (w, rest).
  Proof.
    induction w as [|r w IH]; intros rest F H; cbn.
    - destruct rest as [|x rest]; [reflexivity|]. destruct H as [H|H]; [discriminate|]. cbn in *. rewrite H. reflexivity.
    - inversion_clear F. rewrite H0, IH; auto.
  Qed.
  Lemma readTick_inv : forall s w rest, readTick C s = (w, rest) ->
    s = w ++ rest /\ Forall (fun r => tick_end C r = false) w /\ (rest = [] \/ tick_end C (hd 0 rest) = true).
  Proof.
    induction s as [|r s IH]; intros w rest H; cbn in H.
    - injection H as <- <-. repeat split; auto.
    - destruct (tick_end C r) eqn:N.
      + injection H as <- <-. repeat split; auto.
      + destruct (readTick C s) as [w' rest'] eqn:E. injection H as <- <-.
        destruct (IH _ _ eq_refl) as (-> & F & G). repeat split; auto.
  Qed.
  (* --- single quotes --- *)
  Lemma readQuote_app : forall w rest, hd 0 rest <> r_quote -> readQuote (doubled w ++ r_quote :: rest) = Ok (w, rest).
  Proof.
    induction w as [|r w IH]; intros rest H.
    - cbn. destruct rest as [|q rest]; [reflexivity|]. cbn in H. apply Z.eqb_neq in H. rewrite H. reflexivity.
    - cbn [doubled]. destruct (r =? r_quote) eqn:E.
      + apply Z.eqb_eq in E. subst r. cbn [app readQuote]. rewrite !Z.eqb_refl. rewrite IH by exact H. reflexivity.
      + cbn [app readQuote]. rewrite E, IH by exact H. reflexivity.
  Qed.
  Lemma readQuote_none : forall w, readQuote (doubled w) = Err.
  Proof.
    induction w as [|r w IH]; [reflexivity|]. cbn [doubled]. destruct (r =? r_quote) eqn:E.
    - cbn [readQuote]. rewrite !Z.eqb_refl, IH. reflexivity.
    - cbn [readQuote]. rewrite E, IH. reflexivity.
  Qed.
  Lemma readQuote_inv : forall n s, (length s <= n)%nat ->
    (exists w, s = doubled w /\ readQuote s = Err) \/
    (exists w rest, s = doubled w ++ r_quote :: rest /\ hd 0 rest <> r_quote /\ readQuote s = Ok (w, rest)).
  Proof.
    induction n as [|n IH]; intros s L.
    - destruct s; [|cbn in L; lia]. left. exists []. auto.
    - destruct s as [|r s]; [left; exists []; auto|]. cbn in L.
      destruct (r =? r_quote) eqn:E.
      + apply Z.eqb_eq in E. subst r. destruct s as [|q s].
        * right. exists [], []. cbn. repeat split. discriminate.
        * destruct (q =? r_quote) eqn:Q.
          -- pose proof Q as Q'. apply Z.eqb_eq in Q'. subst q. destruct (IH s) as [(w & -> & R)|(w & rest & -> & N & R)]; [cbn in L; lia| |].
             ++ left. exists (r_quote :: w). cbn [doubled readQuote]. rewrite !Z.eqb_refl, R. auto.
             ++ right. exists (r_quote :: w), rest. cbn [doubled readQuote app]. rewrite !Z.eqb_refl, R. auto.
          -- right. exists [], (q :: s). cbn [doubled readQuote app hd]. rewrite Z.eqb_refl, Q. repeat split. apply Z.eqb_neq, Q.
      + destruct (IH s) as [(w & -> & R)|(w & rest & -> & N & R)]; [lia| |].
        * left. exists (r :: w). cbn [doubled readQuote]. rewrite E, R. auto.
        * right. exists (r :: w), rest. cbn [doubled readQuote app]. rewrite E, R. auto.
  Qed.
  (* --- double quotes --- *)
  Lemma readDouble_app : forall b, escaped b -> forall acc rest,
    readDouble C acc false (b ++ r_dquote :: rest) =
    match s_unquote C (rev acc ++ b ++ [r_dquote]) with Some q => Ok (q, rest) | None => Err end.
  Proof.
    induction 1 as [|r s N1 N2 E IH|r s E IH]; intros acc rest.
    - cbn. rewrite ?app_nil_r. reflexivity.
    - apply Z.eqb_neq in N1, N2. cbn [app readDouble]. cbn [andb negb]. rewrite N1, N2. cbn [negb andb].
      rewrite IH. cbn [rev]. rewrite <- !app_assoc. reflexivity.
    - cbn [app readDouble andb negb]. rewrite !Z.eqb_refl. cbn [negb andb].
      destruct (r =? r_bslash) eqn:B.
      + cbn [andb negb]. apply Z.eqb_eq in B. subst r. change (r_bslash =? r_dquote) with false. cbn [andb].
        rewrite IH. cbn [rev]. rewrite <- !app_assoc. reflexivity.
      + cbn [andb negb]. destruct (r =? r_dquote) eqn:D.
        * rewrite IH. cbn [rev]. rewrite <- !app_assoc. reflexivity.
        * rewrite IH. cbn [rev]. rewrite <- !app_assoc. reflexivity.
  Qed.
  Lemma readDouble_inv : forall n s, (length s <= n)%nat -> forall acc q rest,
    readDouble C acc false s = Ok (q, rest) ->
    exists b, escaped b /\ s = b ++ r_dquote :: rest /\ s_unquote C (rev acc ++ b ++ [r_dquote]) = Some q.
  Proof.
    induction n as [|n IH]; intros s L acc q rest H.
    - destruct s; [discriminate|cbn in L; lia].
    - destruct s as [|r s]; [discriminate|]. cbn in L. cbn [readDouble andb negb] in H.
      destruct (r =? r_bslash) eqn:B.
      + apply Z.eqb_eq in B. subst r. cbn [negb andb] in H. destruct s as [|r s]; [discriminate|].
        cbn [readDouble andb negb] in H. destruct (r =? r_bslash) eqn:B.
        * apply Z.eqb_eq in B. subst r. change (r_bslash =? r_dquote) with false in H. cbn [andb negb] in H.
          destruct (IH s ltac:(cbn in L; lia) _ _ _ H) as (b & E & -> & Q).
          exists (r_bslash :: r_bslash :: b). repeat split; [constructor; exact E|]. cbn [rev] in Q. rewrite <- !app_assoc in Q. exact Q.
        * cbn [andb negb] in H. destruct (r =? r_dquote) eqn:D.
          -- destruct (IH s ltac:(cbn in L; lia) _ _ _ H) as (b & E & -> & Q).
             exists (r_bslash :: r :: b). repeat split; [constructor; exact E|]. cbn [rev] in Q. rewrite <- !app_assoc in Q. exact Q.
          -- destruct (IH s ltac:(cbn in L; lia) _ _ _ H) as (b & E & -> & Q).
             exists (r_bslash :: r :: b). repeat split; [constructor; exact E|]. cbn [rev] in Q. rewrite <- !app_assoc in Q. exact Q.
      + cbn [andb negb] in H. destruct (r =? r_dquote) eqn:D.
        * apply Z.eqb_eq in D. subst r. destruct (s_unquote C (rev (r_dquote :: acc))) eqn:Q; [|discriminate].
          injection H as <- <-. exists []. repeat split; [constructor|]. cbn [rev] in Q. exact Q.
        * destruct (IH s ltac:(lia) _ _ _ H) as (b & E & -> & Q).
          exists (r :: b). repeat split; [constructor; auto; apply Z.eqb_neq; assumption|]. cbn [rev] in Q. rewrite <- !app_assoc in Q. exact Q.
  Qed.
  Lemma readDouble_nopanic : forall s acc q, readDouble C acc q s <> Panic.
  Proof.
    induction s as [|r s IH]; intros acc q; cbn; [discriminate|].
    repeat match goal with |- context [if ?b then _ else _] => destruct b end; try apply IH; destruct (s_unquote C _); discriminate.
  Qed.
  (* --- names --- *)
  Lemma identRest_app : forall a w, name_tail C a w -> forall rest,
    (rest = [] \/ (AllowedInVarname U (hd 0 rest) false = false /\ (hd 0 rest = r_arrow -> a || has_arrow w = true))) ->
    identRest C false a (w ++ rest) = (w, rest, match w with [] => false | _ => false end).
  Proof.
    induction 1 as [a|a r s A N IH|s N IH]; intros rest H; cbn [app].
    - destruct rest as [|x rest]; [reflexivity|]. destruct H as [H|[H H']]; [discriminate|]. cbn [identRest hd] in *.
      rewrite H. destruct (x =? r_arrow) eqn:E; [|reflexivity].
      apply Z.eqb_eq in E. specialize (H' E). cbn in H'. rewrite orb_false_r in H'. subst a. reflexivity.
    - cbn [identRest]. rewrite A. assert (R : r <> r_arrow) by (intros ->; cbn in A; discriminate).
      rewrite IH; [reflexivity|].
      destruct H as [H|[H H']]; [left; exact H|right]. split; [exact H|].
      intros E. specialize (H' E). unfold has_arrow, in_runes in *. cbn [existsb] in H'.
      apply Z.eqb_neq in R. rewrite Z.eqb_sym in R. rewrite R in H'. exact H'.
    - cbn [identRest]. change (AllowedInVarname U r_arrow false) with false. cbn iota. rewrite Z.eqb_refl. cbn [andb negb].
      rewrite IH; [reflexivity|].
      destruct H as [H|[H H']]; [left; exact H|right]. split; [exact H|]. auto.
  Qed.
  Lemma identRest_inv : forall s a w rest e, identRest C false a s = (w, rest, e) ->
    e = false /\ s = w ++ rest /\ name_tail C a w /\
    (rest = [] \/ (AllowedInVarname U (hd 0 rest) false = false /\ (hd 0 rest = r_arrow -> a || has_arrow w = true))).
  Proof.
    induction s as [|r s IH]; intros a w rest e H; cbn [identRest] in H.
    - injection H as <- <- <-. repeat split; auto. constructor.
    - destruct (AllowedInVarname U r false) eqn:A.
      + destruct (identRest C false a s) as [[w' rest'] e'] eqn:E. injection H as <- <- <-.
        destruct (IH _ _ _ _ E) as (-> & -> & N & R). repeat split; [constructor; auto|].
        destruct R as [R|[R R']]; [auto|right]. split; [exact R|]. intros Q. specialize (R' Q).
        unfold has_arrow, in_runes in *. cbn [existsb]. rewrite orb_assoc.
        destruct a; [reflexivity|]. cbn [orb] in *. rewrite R'. apply orb_true_r.
      + destruct (r =? r_arrow) eqn:B; [destruct a|].
        * cbn [andb negb] in H. injection H as <- <- <-. repeat split; [constructor|]. right. split; [exact A|]. auto.
        * cbn [andb negb] in H. destruct (identRest C false true s) as [[w' rest'] e'] eqn:E. injection H as <- <- <-.
          apply Z.eqb_eq in B. subst r.
          destruct (IH _ _ _ _ E) as (-> & -> & N & R). repeat split; [apply nt_arrow; exact N|].
          destruct R as [R|[R R']]; [auto|right]. split; [exact R|]. intros Q. reflexivity.
        * cbn [andb negb] in H. injection H as <- <- <-. repeat split; [constructor|]. right. split; [exact A|].
          cbn. intros ->. rewrite Z.eqb_refl in B. discriminate.
  Qed.

  (* --- one token --- *)
  Lemma allowed_not_special : forall r, AllowedInVarname U r true = true ->
    in_runes r [r_dquote; r_quote; r_tick] = false /\ (forall s, number_start r s = false) /\ punctuation r = None /\ blank r = false /\ r <> r_lamp.
  Proof.
    intros r A.
    assert (B : r = 9109 \/ r = 9082 \/ r = 9077 \/ r = 95 \/ (65 <= r <= 90) \/ (97 <= r <= 122) \/ r = 170 \/ r = 181 \/ r = 186 \/ 192 <= r <= 255 \/ (256 <= r /\ technical r = false)).
    { rlia. }
    repeat split.
    - rlia.
    - intros s. runes. destruct s as [|n s]; lia.
    - runes. destruct (r <? 256) eqn:L; repeat match goal with |- context [if ?b then _ else _] => destruct b eqn:? end; try reflexivity; exfalso; lia.
    - rlia.
    - rlia.
  Qed.
  Lemma punct_not_special : forall r ty, punctuation r = Some ty ->
    in_runes r [r_dquote; r_quote; r_tick] = false /\ (forall s, number_start r s = false) /\ AllowedInVarname U r true = false /\ ty <> Endl.
  Proof.
    intros r ty P.
    assert (E : ty <> Endl).
    { unfold punctuation in P. repeat match type of P with (if ?b then _ else _) = _ => destruct b end; congruence. }
    assert (R : r = 40 \/ r = 41 \/ r = 91 \/ r = 93 \/ r = 123 \/ r = 125 \/ r = 58 \/ r = 59 \/ r = r_nabla \/ r = r_diamond).
    { unfold punctuation in P. repeat match type of P with (if ?b then _ else _) = _ => destruct b eqn:? end; try discriminate; lia. }
    repeat split; [| |  |exact E]; decompose [or] R; subst r; try reflexivity; intros [|? ?]; reflexivity.
  Qed.
  Lemma nextToken_written : forall t w rest, written C t w rest -> nextToken C (w ++ rest) = Ok (t, rest) /\ tt t <> Endl.
  Proof.
    intros t w rest W. destruct W.
    - split; [|discriminate]. cbn [app nextToken]. change (in_runes r_quote _) with true. cbn iota.
      unfold scanString, ReadString. change (in_runes r_quote _) with true. cbn [negb]. change (r_quote =? r_tick) with false. rewrite Z.eqb_refl. cbn iota.
      rewrite <- app_assoc. cbn [app]. rewrite readQuote_app by assumption. reflexivity.
    - split; [|discriminate]. cbn [app nextToken]. change (in_runes r_dquote _) with true. cbn iota.
      unfold scanString, ReadString. change (in_runes r_dquote _) with true. cbn [negb].
      change (r_dquote =? r_tick) with false. change (r_dquote =? r_quote) with false. cbn iota.
      rewrite <- app_assoc. cbn [app]. rewrite readDouble_app by assumption. cbn [rev app]. rewrite H0. reflexivity.
    - split; [|discriminate]. cbn [app nextToken]. change (in_runes r_tick _) with true. cbn iota.
      unfold scanString, ReadString. change (in_runes r_tick _) with true. cbn [negb]. rewrite Z.eqb_refl. cbn iota.
      rewrite readTick_app by assumption. reflexivity.
    - split; [|discriminate]. change ((r :: w) ++ rest) with (r :: (w ++ rest)). cbn [nextToken].
      assert (NR : number_rune r = true) by (destruct H as [H|[->|[-> H]]]; [unfold number_rune; rewrite H|..]; reflexivity).
      assert (S1 : in_runes r [r_dquote; r_quote; r_tick] = false) by (rlia).
      assert (S2 : number_start r (w ++ rest) = true).
      { unfold number_start. destruct H as [H|[->|[-> H]]]; [rewrite H; reflexivity|reflexivity|].
        destruct (w ++ rest); cbn [hd] in H; [discriminate|]. rewrite H. apply orb_true_r. }
      rewrite S1, S2. change (r :: w ++ rest) with ((r :: w) ++ rest). rewrite ScanNumber_app; auto.
    - split; [|discriminate]. cbn [app nextToken].
      assert (S1 : in_runes r [r_dquote; r_quote; r_tick] = false) by rlia.
      assert (S2 : number_start r rest = false).
      { unfold starts_special in H0. unfold number_start. destruct (r =? r_dot) eqn:D.
        - apply Z.eqb_eq in D. specialize (H1 D). destruct rest; cbn [hd] in H1; [|rewrite H1]; runes; lia.
        - runes; destruct rest; lia. }
      rewrite S1, S2, H. reflexivity.
    - split; [|discriminate]. change ((r :: w) ++ rest) with (r :: (w ++ rest)). cbn [nextToken].
      destruct (allowed_not_special _ H) as (S1 & S2 & _). rewrite S1, S2, H0, H. unfold scanIdentifier.
      cbn [identRest]. rewrite H. rewrite (identRest_app false) by assumption. reflexivity.
    - cbn [app nextToken]. destruct (punct_not_special _ _ H) as (S1 & S2 & S3 & S4). rewrite S1, S2, H0, S3, H. split; [reflexivity|exact S4].
  Qed.
  (* the blanks before a token *)
  Definition blanks (bs : text) : Prop := Forall (fun b => blank b = true /\ s_symbols C b = None) bs.
  Lemma nextToken_blanks : forall bs s, blanks bs -> nextToken C (bs ++ s) = nextToken C s.
  Proof.
    induction 1 as [|b bs [B S] F IH]; [reflexivity|]. cbn [app nextToken].
    assert (S1 : in_runes b [r_dquote; r_quote; r_tick] = false) by (rlia).
    assert (S2 : number_start b (bs ++ s) = false) by (runes; destruct (bs ++ s); lia).
    assert (S3 : AllowedInVarname U b true = false) by (rlia).
    assert (S4 : punctuation b = None).
    { runes. repeat match goal with |- context [if ?b then _ else _] => destruct b eqn:? end; try reflexivity; exfalso; lia. }
    rewrite S1, S2, S, S3, S4, B. exact IH.
  Qed.
  Lemma nextToken_inv : forall s, 
    nextToken C s = Err \/
    (exists bs w t rest, blanks bs /\ s = bs ++ w ++ rest /\ written C t w rest /\ nextToken C s = Ok (t, rest)) \/
    (exists bs rest, blanks bs /\ (s = bs \/ (s = bs ++ r_lamp :: rest /\ s_symbols C r_lamp = None)) /\ exists r', nextToken C s = Ok (Tok Endl [], r')).
  Proof.
    induction s as [|r s IH].
    - right. right. exists [], []. repeat split; [constructor|auto|]. exists []. reflexivity.
    - cbn [nextToken]. destruct (in_runes r [r_dquote; r_quote; r_tick]) eqn:Q.
      { unfold scanString, ReadString.
        assert (Q' : in_runes r [r_tick; r_quote; r_dquote] = true) by (rlia). rewrite Q'. cbn [negb].
        destruct (r =? r_tick) eqn:T.
        { apply Z.eqb_eq in T. subst r. destruct (readTick C s) as [w rest] eqn:E.
          destruct (readTick_inv _ _ _ E) as (-> & F & G). right. left.
          exists [], (r_tick :: w), (Tok String w), rest. repeat split; [constructor|]. constructor; assumption. }
        destruct (r =? r_quote) eqn:T1.
        { apply Z.eqb_eq in T1. subst r. destruct (readQuote_inv _ s (le_n _)) as [(w & -> & R)|(w & rest & -> & N & R)].
          - left. rewrite R. reflexivity.
          - right. left. exists [], (r_quote :: doubled w ++ [r_quote]), (Tok Chars w), rest.
            repeat split; [constructor|cbn; rewrite <- app_assoc; reflexivity|constructor; assumption|rewrite R; reflexivity]. }
        assert (r = r_dquote) by (rlia). subst r.
        destruct (readDouble C [r_dquote] false s) as [[q rest]| |] eqn:E.
        - right. left. destruct (readDouble_inv _ _ (le_n _) _ _ _ E) as (b & F & -> & G).
          exists [], (r_dquote :: b ++ [r_dquote]), (Tok String q), rest.
          repeat split; [constructor|cbn; rewrite <- app_assoc; reflexivity|constructor; assumption].
        - left. reflexivity.
        - exfalso. exact (readDouble_nopanic _ _ _ E). }
      destruct (number_start r s) eqn:N.
      { cbn [ScanNumber].
        assert (NR : number_rune r = true) by (unfold number_start in N; runes; destruct s; lia).
        rewrite NR. destruct (ScanNumber s) as [w rest] eqn:E. destruct (ScanNumber_inv _ _ _ E) as (-> & F & G).
        right. left. exists [], (r :: w), (Tok Number (r :: w)), rest. repeat split; [constructor|].
        constructor; [|assumption|assumption].
        unfold number_start in N. destruct (digit r); [auto|]. destruct (r =? r_macron) eqn:M; [apply Z.eqb_eq in M; auto|].
        cbn [orb] in N. apply andb_prop in N. destruct N as [N1 N2]. apply Z.eqb_eq in N1. right. right. split; [exact N1|].
        destruct (w ++ rest); [discriminate|exact N2]. }
      destruct (s_symbols C r) as [t|] eqn:Y.
      { right. left. exists [], [r], (Tok Symbol t), s. repeat split; [constructor|].
        constructor; [exact Y|..].
        - unfold starts_special. unfold number_start in N. rlia.
        - intros ->. unfold number_start in N. rewrite Z.eqb_refl in N. destruct s as [|n s]; [reflexivity|]. cbn [hd].
          destruct (digit n); [|reflexivity]. rewrite orb_true_r in N. discriminate. }
      destruct (AllowedInVarname U r true) eqn:A.
      { unfold scanIdentifier. cbn [identRest]. rewrite A. destruct (identRest C false false s) as [[w rest] e] eqn:E.
        destruct (identRest_inv _ _ _ _ _ E) as (-> & -> & T & R).
        right. left. exists [], (r :: w), (Tok Identifier (r :: w)), rest. repeat split; [constructor|].
        constructor; assumption. }
      destruct (punctuation r) as [ty|] eqn:P.
      { right. left. exists [], [r], (Tok ty [r]), s. repeat split; [constructor|]. constructor; assumption. }
      destruct (blank r) eqn:B.
      { destruct IH as [IH|[(bs & w & t & rest & F & -> & W & E)|(bs & rest & F & S & r' & E)]].
        - left. exact IH.
        - right. left. exists (r :: bs), w, t, rest. repeat split; [constructor; auto|exact W|exact E].
        - right. right. exists (r :: bs), rest. repeat split; [constructor; auto| |exists r'; exact E].
          destruct S as [->|[-> S]]; [left; reflexivity|right; split; [reflexivity|exact S]]. }
      destruct (r =? r_lamp) eqn:L; [|left; reflexivity].
      apply Z.eqb_eq in L. subst r. right. right. exists [], s. repeat split; [constructor|right; auto|]. exists s. reflexivity.
  Qed.
  Lemma written_nonempty : forall t w rest, written C t w rest -> w <> [].
  Proof. intros t w rest W. destruct W; discriminate. Qed.

  (* --- the line --- *)
  Lemma reads_blanks : forall bs s l, blanks bs -> reads C s l -> reads C (bs ++ s) l.
  Proof. induction 1 as [|b bs [B S] F IH]; intros R; [exact R|]. cbn. constructor; auto. Qed.
  Lemma scanLoop_reads : forall n s, (length s < n)%nat -> 
    (exists l, scanLoop C n s = Ok l /\ reads C s l) \/ scanLoop C n s = Err.
  Proof.
    induction n as [|n IH]; intros s L; [lia|]. cbn [scanLoop].
    destruct (nextToken_inv s) as [E|[(bs & w & t & rest & F & -> & W & E)|(bs & rest & F & S & r' & E)]]; rewrite E; cbn [obind fst snd tt].
    - right. reflexivity.
    - pose proof (written_nonempty _ _ _ W) as NE. destruct (nextToken_written _ _ _ W) as [_ NT].
      rewrite !app_length in L. assert (length rest < n)%nat by (destruct w; [congruence|cbn in L; lia]).
      destruct (IH rest) as [(l & E1 & R)|E1]; [lia|left|right; rewrite E1; destruct (tt t); [congruence|..]; reflexivity].
      exists (t :: l). rewrite E1. split.
      + destruct (tt t); [congruence|..]; reflexivity.
      + apply reads_blanks; [exact F|]. constructor; assumption.
    - left. exists []. split; [reflexivity|]. destruct S as [->|[-> S]].
      + rewrite <- (app_nil_r bs). apply reads_blanks; [exact F|constructor].
      + apply reads_blanks; [exact F|constructor; exact S].
  Qed.
  Lemma reads_scanLoop : forall s l, reads C s l -> forall n, (length s < n)%nat -> scanLoop C n s = Ok l.
  Proof.
    induction 1 as [|s S|b s l B S R IH|t w s l W R IH]; intros n L; destruct n as [|n]; try lia.
    - reflexivity.
    - cbn [scanLoop].
      assert (E : nextToken C (r_lamp :: s) = Ok (Tok Endl [], s)).
      { cbn [nextToken]. change (in_runes r_lamp _) with false. change (number_start r_lamp s) with false. cbn iota. rewrite S. reflexivity. }
      rewrite E. reflexivity.
    - cbn [scanLoop]. assert (E : nextToken C (b :: s) = nextToken C s) by (apply (nextToken_blanks [b]); constructor; auto).
      rewrite E. change (scanLoop C (Datatypes.S n) s = Ok l). apply IH. cbn in L. lia.
    - cbn [scanLoop]. destruct (nextToken_written _ _ _ W) as [E NT]. rewrite E. cbn [obind fst snd tt].
      pose proof (written_nonempty _ _ _ W). rewrite app_length in L.
      rewrite IH by (destruct w; [congruence|cbn in L; lia]). destruct (tt t); [congruence|..]; reflexivity.
  Qed.
  Lemma scanTokens_reads : forall s l, scanTokens C s = Ok l <-> reads C s l.
  Proof.
    intros s l. unfold scanTokens. split.
    - intros H. destruct (scanLoop_reads (Datatypes.S (length s)) s) as [(l' & E & R)|E]; [lia| |]; rewrite E in H; [|discriminate].
      injection H as ->. exact R.
    - intros R. apply reads_scanLoop; [exact R|lia].
  Qed.
  Lemma scanTokens_total : forall s, scanTokens C s <> Panic.
  Proof. intros s. unfold scanTokens. destruct (scanLoop_reads (Datatypes.S (length s)) s) as [(l' & E & R)|E]; [lia| |]; rewrite E; discriminate. Qed.

  (* a token that ends at a blank ends at every blank and at the end of the line *)
  Lemma written_blank : forall t w rest, written C t w [32] -> (rest = [] \/ blank (hd 0 rest) = true) -> written C t w rest.
  Proof.
    intros t w rest W R.
    assert (B : rest = [] \/ in_runes (hd 0 rest) [32; 13; 9] = true) by exact R. clear R.
    assert (Q : hd 0 rest = 0 \/ hd 0 rest = 32 \/ hd 0 rest = 13 \/ hd 0 rest = 9).
    { destruct B as [->|B]; [left; reflexivity|]. right. rlia. }
    inversion W; subst; constructor; try assumption.
    - rlia.
    - destruct B as [->|B]; [left; reflexivity|right]. rlia.
    - match goal with X : digit r = true \/ _ |- _ => destruct X as [X|[X|[X Y]]]; [auto|auto|]; right; right; split; [exact X|] end.
      match goal with Y : digit (hd 0 (?v ++ _)) = true |- _ => destruct v as [|x w0]; [cbn in Y; discriminate|exact Y] end.
    - rlia.
    - intros _. rlia.
    - destruct B as [->|B]; [left; reflexivity|right]. split; [|intros E; exfalso; runes; lia]. rlia.
  Qed.
  Lemma spaced_reads : forall ws line, proper_symbols C -> spaced ws line -> forall l, Forall2 (fun t w => written C t w [32]) l ws -> reads C line l.
  Proof.
    intros ws line P H.
    assert (BL : forall bs, Forall (fun b => blank b = true) bs -> blanks bs).
    { intros bs F. eapply Forall_impl; [|exact F]. intros b B. split; [exact B|].
      destruct (s_symbols C b) eqn:E; [|reflexivity]. destruct (P b ltac:(congruence)) as [X _]. cbn beta in B. congruence. }
    induction H as [bs F|bs s F|bs w bs' ws line F F' H IH Q]; intros l W.
    - inversion W. subst. rewrite <- (app_nil_r bs). apply reads_blanks; [auto|constructor].
    - inversion W. subst. apply reads_blanks; [auto|constructor].
      destruct (s_symbols C r_lamp) eqn:E; [|reflexivity]. destruct (P r_lamp ltac:(congruence)) as [_ X]. congruence.
    - inversion W as [|t w' l' ws' W1 W2]. subst. apply reads_blanks; [auto|]. constructor.
      + apply written_blank; [exact W1|]. destruct Q as [Q|Q].
        * right. inversion F' as [|b bs1 B1 B2]; subst; [congruence|]. exact B1.
        * subst line. rewrite app_nil_r. inversion F' as [|b bs1 B1 B2]; subst; [left; reflexivity|right; exact B1].
      + apply reads_blanks; auto.
  Qed.
End Proofs.
