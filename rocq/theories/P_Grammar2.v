(* P_Grammar2.v -- the parser reads the statements of the grammar. *)
From Coq Require Import String List Bool ZArith Lia.
From Verif Require Import Base M_Scan M_Syntax M_Parse S_Parse S_Grammar P_Parse P_Lines P_Sentence P_Sentence2 P_Sentence3 P_Grammar.
Import ListNotations.
Open Scope nat_scope.
Open Scope list_scope.

(* ---------- matching brackets ---------- *)
Section Pull.
  Context (left right : ttype) (LR : pair_of left right).
  Definition more (t : token) (r : option (list token * list token)) : option (list token * list token) :=
    match r with Some (i, r) => Some (t :: i, r) | None => None end.
  Lemma pull_other : forall t lv rt, tt t <> Endl -> tt t <> left -> tt t <> right -> pullMatching left right lv (t :: rt) = more t (pullMatching left right lv rt).
  Proof.
    intros t lv rt E L R. cbn [pullMatching]. apply teqb_neq in E, L, R. rewrite E, L, R. reflexivity.
  Qed.
  Lemma pull_nested : forall l, nested l -> no_endl l -> forall lv rt, 0 < lv ->
    pullMatching left right lv (rev l ++ rt) = match pullMatching left right lv rt with Some (i, r) => Some (rev l ++ i, r) | None => None end.
  Proof.
    assert (NLR : left <> right) by (inversion LR; discriminate).
    assert (NE : right <> Endl) by (inversion LR; discriminate). assert (NE' : left <> Endl) by (inversion LR; discriminate).
    induction 1 as [|t l NB N IH|t u a l P Na IHa Nl IHl]; intros F lv rt L.
    - cbn. destruct (pullMatching left right lv rt) as [[? ?]|]; reflexivity.
    - inversion F as [|? ? F1 F2]; subst. cbn [rev]. rewrite <- app_assoc. cbn [app]. rewrite IH by assumption.
      rewrite pull_other; [|exact F1|intros Q; apply NB; exists right; left; congruence|intros Q; apply NB; exists left; right; congruence].
      destruct (pullMatching left right lv rt) as [[i r]|]; [|reflexivity]. cbn [more]. rewrite <- app_assoc. reflexivity.
    - inversion F as [|? ? F1 F2]; subst. apply Forall_app in F2. destruct F2 as [F2 F3]. inversion F3 as [|? ? F4 F5]; subst.
      cbn [rev]. rewrite rev_app_distr. cbn [rev]. rewrite <- !app_assoc. cbn [app]. rewrite IHl by assumption.
      destruct (ttype_eq_dec (tt u) right) as [UR|UR].
      + assert (TL : tt t = left) by (rewrite UR in P; inversion P; inversion LR; congruence).
        cbn [pullMatching]. apply teqb_neq in F4. rewrite F4, UR, teqb_refl. rewrite IHa by (auto; lia). cbn [pullMatching]. apply teqb_neq in F1. rewrite F1, TL, teqb_refl.
        assert (X : teqb left right = false) by (apply teqb_neq; exact NLR). rewrite X. destruct lv as [|lv]; [lia|].
        destruct (pullMatching left right (Datatypes.S lv) rt) as [[i r]|]; [|reflexivity]. cbn. rewrite <- !app_assoc. cbn. rewrite <- !app_assoc. reflexivity.
      + assert (UL : tt u <> left) by (intros Q; rewrite Q in P; inversion P; inversion LR; congruence).
        assert (TR : tt t <> right) by (intros Q; rewrite Q in P; inversion P; inversion LR; congruence).
        assert (TL : tt t <> left) by (intros Q; rewrite Q in P; inversion P; inversion LR; congruence).
        rewrite pull_other by assumption. rewrite IHa by auto. rewrite pull_other by assumption.
        destruct (pullMatching left right lv rt) as [[i r]|]; [|reflexivity]. cbn. rewrite <- !app_assoc. cbn. rewrite <- !app_assoc. reflexivity.
  Qed.
  Lemma pull_wrap : forall l t rest, nested l -> no_endl l -> tt t = left -> pullMatching left right 1 (rev l ++ t :: rest) = Some (rev l, rest).
  Proof.
    intros l t rest N F T. rewrite pull_nested by (auto; lia). cbn [pullMatching].
    assert (X : teqb (tt t) Endl = false) by (apply teqb_neq; rewrite T; inversion LR; discriminate).
    assert (Y : teqb (tt t) right = false) by (apply teqb_neq; rewrite T; inversion LR; discriminate).
    rewrite X, Y, T, teqb_refl, app_nil_r. reflexivity.
  Qed.
End Pull.

Section Correct.
  Context {D : Type} (G : grammar D).
  Local Notation expr := (expr D).
  Local Notation piece := (piece D).
  Local Notation items := (map (@item_of D)).
  Local Notation P := (parseStatement G).
  Definition follows (rest toks : list token) : Prop :=
    forall t r u b, rest = t :: r -> toks = u :: b -> ~ (in_array G t /\ in_array G u).

  (* ---------- arrays ---------- *)
  Lemma collect_atom : forall t es, atom G t es -> forall rt ar, (tt t = Chars -> length (ts t) <= 1 \/ ar = []) ->
    collect G (t :: rt) ar = collect G rt (es ++ ar).
  Proof.
    intros t es H rt ar C. cbn [collect]. destruct H as [t n T NU|t T|t T|t T V].
    - rewrite T, NU. reflexivity.
    - rewrite T. reflexivity.
    - rewrite T. specialize (C T). destruct C as [C| ->].
      + assert (X : (1 <? Z.of_nat (length (ts t)))%Z = false) by (apply Z.ltb_ge; lia). rewrite X, andb_false_r. reflexivity.
      + reflexivity.
    - rewrite T. unfold nameof in V. rewrite V. reflexivity.
  Qed.
  Lemma collect_atoms : forall toks es, atoms G toks es -> forall rest, collect G (rev toks ++ rest) [] = collect G rest es.
  Proof.
    induction 1 as [|t es l fs A AS IH C]; intros rest; [reflexivity|]. cbn [rev]. rewrite <- app_assoc. cbn [app]. rewrite IH.
    apply collect_atom; assumption.
  Qed.
  Lemma collect_stop : forall rest ar, (forall t r, rest = t :: r -> ~ in_array G t) -> collect G rest ar = Ok (ar, rest).
  Proof.
    intros rest ar H. destruct rest as [|t rest]; [reflexivity|]. specialize (H t rest eq_refl). unfold in_array in H. cbn [collect].
    destruct (tt t) eqn:T; try reflexivity; try (exfalso; apply H; tauto).
    destruct (isVarname (name_of (g_unicode G) (ts t))) as [[] []] eqn:V; try reflexivity. exfalso. apply H. right; right; right. split; [reflexivity|exact V].
  Qed.
  Lemma array_step : forall toks es n rest st, toks <> [] -> atoms G toks es -> follows rest toks ->
    P (Datatypes.S n) (rev toks ++ rest) st = (let* st' := reduce false (item_of (N (array_value G es)) :: st) in P n rest st').
  Proof.
    intros toks es n rest st NE A FO.
    assert (CA : collectArray G (rev toks ++ rest) = Ok (array_value G es, rest)).
    { unfold collectArray. rewrite (collect_atoms _ _ A). rewrite collect_stop.
      - cbn [obind fst snd]. destruct es as [|? [|? ?]]; reflexivity.
      - intros t r -> IA. destruct toks as [|u b]; [congruence|]. eapply FO; [reflexivity|reflexivity|]. split; [exact IA|].
        inversion A; subst. eapply atom_inert; eassumption. }
    assert (HD : exists t rt, rev toks ++ rest = t :: rt /\ in_array G t).
    { destruct toks as [|u b] using rev_ind; [congruence|]. clear IHb. rewrite rev_app_distr. cbn. exists u, (rev b ++ rest). split; [reflexivity|].
      clear - A. assert (X : forall l es, atoms G l es -> forall t, In t l -> in_array G t).
      { induction 1 as [|t es' l fs A' AS IH C]; intros x I; [destruct I|]. destruct I as [<-|I]; [eapply atom_inert, A'|auto]. }
      eapply X; [exact A|]. apply in_or_app. right. left. reflexivity. }
    destruct HD as (t & rt & E & IA). rewrite E in *. cbn [parseStatement]. unfold in_array, nameof in IA.
    destruct IA as [T|[T|[T|[T V]]]]; rewrite T; try rewrite V; rewrite CA; reflexivity.
  Qed.

  (* ---------- substatements ---------- *)
  Lemma sub_step : forall t toks u n rest st, pair_of (tt t) (tt u) -> nested toks -> no_endl toks ->
    P (Datatypes.S n) (rev (t :: toks ++ [u]) ++ rest) st =
    (let* i := subStatement G (P n) (tt u) (rev toks) in let* st' := reduce false (i :: st) in P n rest st').
  Proof.
    intros t toks u n rest st PU N E. cbn [rev]. rewrite rev_app_distr. cbn [rev app]. rewrite <- app_assoc. cbn [app parseStatement].
    assert (L : left_of (tt u) = tt t) by (inversion PU; reflexivity).
    pose proof (pull_wrap (tt t) (tt u) PU toks t rest N E eq_refl) as PW. rewrite L.
    destruct (tt u) eqn:U; try (exfalso; inversion PU; fail); rewrite PW; reflexivity.
  Qed.
  Lemma sep_length : forall ty parts l, separated ty parts l -> Forall (fun p => length p <= length l) parts.
  Proof.
    intros ty parts l H. induction H as [p|p s ps l S H IH]; [repeat constructor|]. constructor.
    - rewrite app_length. lia.
    - eapply Forall_proj; [|exact IH]. intros x X. cbn beta in *. rewrite app_length. cbn. lia.
  Qed.
  Lemma sep_bound : forall ty parts l n, separated ty parts l -> length l < n -> Forall (fun p => length p < n) parts.
  Proof. intros ty parts l n S L. eapply Forall_proj; [|eapply sep_length, S]. intros x X. cbn beta in *. lia. Qed.
  Lemma drop_cons : forall (g : guard D) b, b <> [] -> drop_empty_last (g :: b) = g :: drop_empty_last b.
  Proof.
    intros g b NE. unfold drop_empty_last. cbn [rev]. destruct (rev b) as [|x r] eqn:R.
    - exfalso. apply NE. rewrite <- (rev_involutive b), R. reflexivity.
    - cbn [app]. destruct x as [[|] [|]]; try reflexivity. rewrite rev_app_distr. reflexivity.
  Qed.

  (* ---------- brackets on the stack ---------- *)
  Lemma reduce_brackets : forall last (i : item D) st (l : list piece), (forall es c, i <> mkItem (EIdx es) c) ->
    resolveBrackets (i :: st) = Ok (items l) -> Forall proper l -> l <> [] -> reduce last (i :: st) = reduce last (items l).
  Proof.
    intros last i st l NI E F NE. rewrite reduce_open by assumption. unfold reduce. rewrite E. cbn [obind]. rewrite map_length.
    destruct i as [e c]. destruct e; try reflexivity. exfalso. eapply NI. reflexivity.
  Qed.
  Lemma statement_item_result : forall p : piece, ie (statement_item p) = result p.
  Proof.
    intros p. destruct p as [e|f|op|op]; try reflexivity. destruct f; try reflexivity. destruct l as [|[| | |g| | |] [|b [|]]]; try reflexivity; try (destruct g; reflexivity).
    destruct g; try reflexivity. cbn. destruct (_ =? _)%string; reflexivity.
  Qed.
  Lemma statement_item_plain : forall p : piece, result p = as_expr p -> statement_item p = item_of p.
  Proof.
    intros p. destruct p as [e|f|op|op]; try reflexivity. destruct f; try reflexivity. destruct l as [|[| | |g| | |] [|b [|]]]; try reflexivity; try (destruct g; reflexivity).
    destruct g; try reflexivity. cbn. destruct (_ =? _)%string; [discriminate|reflexivity].
  Qed.

  Definition P_base (toks : list token) (x : piece) : Prop :=
    forall n rest st, length toks + length rest < n -> follows rest toks ->
    exists n', length rest < n' /\ P n (rev toks ++ rest) st = (let* st' := reduce false (item_of x :: st) in P n' rest st').
  Definition P_brackets (toks : list token) (es : list expr) : Prop :=
    exists t inner u, toks = t :: inner ++ [u] /\ tt t = LeftBrack /\ tt u = RightBrack /\ nested inner /\ no_endl inner /\
      forall n, length inner < n -> subStatement G (P n) RightBrack (rev inner) = Ok (mkItem (EIdx es) adverb).
  Definition P_chunk (nx : option piece) (toks : list token) (ps : list piece) : Prop :=
    forall n rest p c st, length toks + length rest < n -> follows rest toks -> hd_error st = nx -> Inv p (c ++ ps) st ->
    exists n' st', length rest < n' /\ P n (rev toks ++ rest) (items st) = P n' rest (items st') /\ Inv p c st' /\ hd_error st' = hd_error ps.
  Definition P_chunks (toks : list token) (ps : list piece) : Prop :=
    forall n rest p c, length toks + length rest < n -> follows rest toks -> Inv p (c ++ ps) [] ->
    exists n' st', length rest < n' /\ P n (rev toks ++ rest) [] = P n' rest (items st') /\ Inv p c st' /\ hd_error st' = hd_error ps.
  Definition P_phrase (toks : list token) (p : piece) : Prop :=
    forall n, length toks < n -> P n (rev toks) [] = Ok (Some (statement_item p)).
  Definition P_reading (toks : list token) (e : option expr) : Prop := forall n, length toks < n -> statement (P n) toks = Ok e.
  Definition P_readings (parts : list (list token)) (es : list (option expr)) : Prop :=
    forall n, Forall (fun p => length p < n) parts -> mapM (statement (P n)) parts = Ok es.
  Definition P_guarded (toks : list token) (g : guard D) : Prop := forall n, length toks < n -> guardExpr (P n) toks = Ok (g, None).
  Definition P_body (parts : list (list token)) (gs : list (guard D)) : Prop :=
    forall n, Forall (fun p => length p < n) parts -> exists b, guards (P n) parts = Ok b /\ drop_empty_last b = gs /\ b <> [].

  (* a bracket on top of the stack *)
  Lemma brackets_step : forall b es n rest st, P_brackets b es -> length b + length rest < Datatypes.S n ->
    P (Datatypes.S n) (rev b ++ rest) st = P n rest (mkItem (EIdx es) adverb :: st).
  Proof.
    intros b es n rest st (t & inner & u & -> & T & U & NI & EI & S) L.
    rewrite sub_step; [|rewrite T, U; constructor|exact NI|exact EI]. rewrite U, S; [reflexivity|].
    cbn in L. rewrite app_length in L. cbn in L. lia.
  Qed.
  (* one more piece on the stack *)
  Lemma push_one : forall p c x st, Inv p (c ++ [x]) st -> exists st', reduce false (item_of x :: items st) = Ok (items st') /\ Inv p c st' /\ hd_error st' = Some x.
  Proof. intros p c x st I. apply (reduce_more p c x st I). Qed.
  Lemma Inv_proper : forall p c (x st : list piece), Inv p (c ++ x) st -> Forall proper (x ++ st).
  Proof. intros p c x st (_ & _ & _ & F). rewrite <- app_assoc in F. apply Forall_app in F. apply F. Qed.
  (* an operator with an axis on the stack *)
  Lemma push_axis : forall p c x a st, operand x = false -> Inv p (c ++ [x; Dop "⍂"%string; N a]) st ->
    exists st', reduce false (item_of x :: mkItem (EIdx [a]) adverb :: items st) = Ok (items st') /\ Inv p c st' /\ hd_error st' = Some x.
  Proof.
    intros p c x a st X I.
    assert (BR : resolveBrackets (item_of x :: mkItem (EIdx [a]) adverb :: items st) = Ok (items ([x; Dop "⍂"%string; N a] ++ st))) by (destruct x; try discriminate; reflexivity).
    pose proof (Inv_proper _ _ _ _ I) as PR.
    assert (NI : forall es c', item_of x <> mkItem (EIdx es) c') by (clear - X; destruct x; cbn in X; try discriminate X; intros es c'; discriminate).
    rewrite (reduce_brackets false _ _ _ NI BR PR ltac:(discriminate)).
    set (l := [x; Dop "⍂"%string; N a] ++ st) in *.
    assert (IL : Inv p c l).
    { destruct I as (SE & TM & J & F). rewrite <- app_assoc in SE, TM, F. split; [exact SE|]. split; [exact TM|]. split; [|exact F].
      subst l. cbn [app]. apply jam_cons; [exact X|]. apply jam_cons; [reflexivity|].
      intros u m v E (y1 & y2 & y3 & -> & Y1 & Y2 & Y3). destruct u as [|z u]; cbn in E.
      - injection E as <- E. apply (TM (c ++ [x]) [Dop "⍂"%string; N a; y2; y3] v); [rewrite <- app_assoc; cbn; rewrite E; reflexivity|]. apply awk_axis; assumption.
      - injection E as <- E. apply (J u [y1; y2; y3] v E). exists y1, y2, y3. auto. }
    assert (OP : resolveOperators (Datatypes.S (length l)) false (items l) = Ok (items l)).
    { cbn [resolveOperators obind fst snd]. subst l. cbn [app]. rewrite mop_stop0 by exact X. cbn [obind fst snd]. rewrite dop_stop0 by exact X. reflexivity. }
    rewrite reduce_open by (auto; discriminate). rewrite OP. cbn [obind]. rewrite map_length.
    destruct (right_more p c l IL) as (rs & R & I' & HD).
    destruct (resolveArrays (Datatypes.S (length l)) false (rev (items l))) as [r| |] eqn:RA; try discriminate. cbn [obind] in R |- *.
    rewrite R. cbn [obind andb]. exists rs. rewrite rev_involutive. split; [reflexivity|]. split; [exact I'|]. rewrite HD. reflexivity.
  Qed.
  Lemma op_step : forall nx t x n rest st, operator G nx t x -> (nx = None \/ exists l, st = items l /\ hd_error l = nx /\ Forall proper l) ->
    (nx = None -> match st with mkItem (EFn _) _ :: _ => False | _ => True end) ->
    P (Datatypes.S n) (t :: rest) st = (let* st' := reduce false (item_of x :: st) in P n rest st').
  Proof.
    intros nx t x n rest st O HS HN. cbn [parseStatement]. destruct O as [t T NP OP NJ|t T NP OP NJ|t d T NP OP J NX]; rewrite T; unfold symbol in *; rewrite NP, OP.
    - apply String.eqb_neq in NJ. rewrite NJ. reflexivity.
    - destruct (String.eqb (utf8 (ts t)) "∘") eqn:J; [|reflexivity]. apply String.eqb_eq in J. destruct (NJ J) as (N1 & N2 & N3).
      assert (SJ : specialJot (mkItem (EFn (FDer (utf8 (ts t)) None None)) conjunction) st = mkItem (EFn (FDer (utf8 (ts t)) None None)) conjunction).
      { destruct HS as [->|(l & -> & HL & PL)].
        - specialize (HN eq_refl). destruct st as [|[[] ?] st]; try reflexivity. destruct HN.
        - destruct l as [|y l]; [reflexivity|]. cbn in HL. cbn [map specialJot]. destruct y as [e|f|o|o]; cbn [item_of].
          + destruct e as [| | |f| | |]; try reflexivity. inversion PL as [|? ? Q _]; destruct Q.
          + destruct f; try reflexivity. destruct (String.eqb op ".") eqn:Q; [|reflexivity]. apply String.eqb_eq in Q. subst op. exfalso. eapply N3. symmetry. exact HL.
          + destruct (String.eqb o ".") eqn:Q; [|reflexivity]. apply String.eqb_eq in Q. subst o. exfalso. apply N2. symmetry. exact HL.
          + destruct (String.eqb o ".") eqn:Q; [|reflexivity]. apply String.eqb_eq in Q. subst o. exfalso. apply N1. symmetry. exact HL. }
      rewrite SJ. reflexivity.
    - rewrite J. cbn [String.eqb]. destruct HS as [H|(l & -> & HL & PL)]; [congruence|]. rewrite NX in HL. destruct l as [|y l]; [discriminate|]. injection HL as ->. reflexivity.
  Qed.

  Lemma parse_grammar :
    (forall toks e, reading G toks e -> P_reading toks e) /\
    (forall toks p, phrase G toks p -> P_phrase toks p) /\
    (forall toks ps, chunks G toks ps -> P_chunks toks ps) /\
    (forall nx toks ps, chunk G nx toks ps -> P_chunk nx toks ps) /\
    (forall toks x, base G toks x -> P_base toks x) /\
    (forall toks es, brackets G toks es -> P_brackets toks es) /\
    (forall parts es, readings G parts es -> P_readings parts es) /\
    (forall toks g, guarded G toks g -> P_guarded toks g) /\
    (forall parts gs, body G parts gs -> P_body parts gs).
  Proof.
    destruct (grammar_shape G) as (S_reading & S_phrase & S_chunks & S_chunk & S_base & S_brackets & S_readings & S_guarded & S_body).
    apply grammar_ind.
    - (* rd_empty *) intros n L. destruct n; [cbn in L; lia|]. reflexivity.
    - (* rd_value *) intros toks p PH IH n L. unfold statement. rewrite (IH n L). cbn [obind option_map]. rewrite statement_item_result. reflexivity.
    - (* ph *) intros toks ps p CS IH SE TM NT n L.
      destruct (S_chunks _ _ CS) as (_ & PR & _).
      assert (I : Inv p ([] ++ ps) []).
      { cbn [app]. split; [|split; [|split]]; rewrite ?app_nil_r.
        - apply sentence_sem; [exact SE|]. intros a t NE E. apply NT. exists a, t. auto.
        - exact TM.
        - intros a m b E (x & y & z & -> & _). destruct a; discriminate.
        - exact PR. }
      destruct (IH n [] p [] ltac:(cbn; lia) ltac:(intros t r u b E; discriminate) I) as (n' & st' & L' & E & I' & _).
      rewrite app_nil_r in E. rewrite E. destruct n'; [cbn in L'; lia|]. cbn [parseStatement]. apply finish_ok; [exact I'|].
      eapply sentence_proper; eassumption.
    - (* cs_nil *) intros n rest p c L _ I. exists n, []. cbn in L |- *. rewrite app_nil_r in I. split; [lia|]. split; [reflexivity|]. split; [exact I|reflexivity].
    - (* cs_cons *) intros a ps b qs CA IHA CB IHB AP n rest p c L FO I.
      destruct (S_chunk _ _ _ CA) as (_ & _ & NA & NPS).
      rewrite app_assoc in I. destruct (IHB n (rev a ++ rest) p (c ++ ps)) as (n1 & st1 & L1 & E1 & I1 & H1).
      { rewrite app_length in *. rewrite rev_length. lia. }
      { intros t r u b' ER EB. destruct a as [|y a] using rev_ind; [congruence|]. clear IHa. rewrite rev_app_distr in ER. cbn in ER. injection ER as -> _.
        eapply AP; [reflexivity|exact EB]. }
      { exact I. }
      destruct (IHA n1 rest p c st1) as (n2 & st2 & L2 & E2 & I2 & H2).
      { rewrite app_length, rev_length in L1. exact L1. }
      { intros t r u b' ER EA. destruct a as [|y a]; [congruence|]. eapply FO; [exact ER|]. cbn. injection EA as -> _. reflexivity. }
      { exact H1. }
      { exact I1. }
      exists n2, st2. split; [exact L2|]. split; [rewrite rev_app_distr, <- app_assoc, E1; exact E2|]. split; [exact I2|].
      rewrite H2. destruct ps; [congruence|reflexivity].
    - (* ch_base *) intros nx toks x B IH n rest p c st L FO HN I. destruct (IH n rest (items st) L FO) as (n' & L' & E).
      destruct (push_one p c x st I) as (st' & E' & I' & H'). exists n', st'. split; [exact L'|]. split; [|auto]. rewrite E, E'. reflexivity.
    - (* ch_operator *) intros nx t x O n rest p c st L FO HN I. destruct n as [|n]; [lia|].
      destruct (push_one p c x st I) as (st' & E' & I' & H'). exists n, st'. split; [cbn in L; lia|]. split; [|auto].
      cbn [rev app]. rewrite (op_step nx t x n rest (items st) O); [rewrite E'; reflexivity| |].
      + right. exists st. split; [reflexivity|]. split; [exact HN|]. apply Inv_proper in I. apply Forall_app in I. apply I.
      + intros ->. destruct st as [|y st]; [exact Logic.I|discriminate].
    - (* ch_index *) intros nx toks e b es B IH BR IHB n rest p c st L FO HN I. destruct n as [|n]; [lia|].
      rewrite rev_app_distr, <- app_assoc. rewrite app_length in L. destruct (S_base _ _ B) as (_ & PE & NE).
      rewrite (brackets_step b es n (rev toks ++ rest) (items st) IHB) by (rewrite app_length, rev_length; lia).
      assert (BL : 0 < length b) by (destruct IHB as (t & inner & u & -> & _); cbn; lia).
      destruct (IH n rest (mkItem (EIdx es) adverb :: items st)) as (n' & L' & E).
      { lia. }
      { intros t r u b' ER EA. destruct toks as [|y toks]; [congruence|]. eapply FO; [exact ER|]. cbn. injection EA as -> _. reflexivity. }
      set (x := N (EApp (FPrim "⌷"%string) (Some (EIdx es)) e false)) in *.
      assert (RB : reduce false (item_of (N e) :: mkItem (EIdx es) adverb :: items st) = reduce false (items (x :: st))).
      { apply reduce_brackets; [| |apply (Inv_proper p c [x] st I)|discriminate].
        - intros es' c' Q. cbn in Q. injection Q as -> _. exact PE.
        - cbn in PE. destruct e; try reflexivity; destruct PE. }
      destruct (push_one p c x st I) as (st' & E' & I' & H'). exists n', st'. split; [exact L'|]. split; [|auto]. rewrite E, RB. cbn [map]. rewrite E'. reflexivity.
    - (* ch_axis *) intros nx t b a T PR BR IHB n rest p c st L FO HN I. destruct n as [|n]; [lia|].
      cbn [rev]. rewrite <- app_assoc. cbn [length] in L. cbn [app].
      rewrite (brackets_step b [a] n (t :: rest) (items st) IHB) by (cbn; lia).
      assert (BL : 0 < length b) by (destruct IHB as (t' & inner & u & -> & _); cbn; lia).
      destruct n as [|n]; [lia|]. cbn [parseStatement]. rewrite T. unfold symbol in *. rewrite PR.
      set (x := V (FDer "⍂"%string (Some (EFn (FPrim (utf8 (ts t))))) (Some a))) in *.
      assert (RB : reduce false (mkItem (EFn (FPrim (utf8 (ts t)))) verb :: mkItem (EIdx [a]) adverb :: items st) = reduce false (items (x :: st))).
      { apply reduce_brackets; [discriminate|reflexivity|apply (Inv_proper p c [x] st I)|discriminate]. }
      destruct (push_one p c x st I) as (st' & E' & I' & H'). exists n, st'. split; [lia|]. split; [|auto]. rewrite RB. cbn [map]. rewrite E'. reflexivity.
    - (* ch_opaxis *) intros nx t x b a O BR IHB NF n rest p c st L FO HN I. destruct n as [|n]; [lia|].
      cbn [rev]. rewrite <- app_assoc. cbn [length] in L. cbn [app].
      rewrite (brackets_step b [a] n (t :: rest) (items st) IHB) by (cbn; lia).
      assert (BL : 0 < length b) by (destruct IHB as (t' & inner & u & -> & _); cbn; lia).
      destruct n as [|n]; [lia|]. rewrite (op_step None t x n rest _ O); [|left; reflexivity|intros _; exact Logic.I].
      assert (X : operand x = false) by (destruct O; [reflexivity|reflexivity|discriminate]).
      destruct (push_axis p c x a st X I) as (st' & E' & I' & H'). exists n, st'. split; [lia|]. split; [|auto]. rewrite E'. reflexivity.
    - (* b_array *) intros toks es NE A n rest st L FO. destruct n as [|n]; [lia|]. exists n. split; [destruct toks; [congruence|]; cbn in L; lia|].
      apply array_step; assumption.
    - (* b_prim *) intros t T PR n rest st L FO. destruct n as [|n]; [lia|]. exists n. cbn in L. split; [lia|]. cbn [rev app parseStatement]. unfold symbol in *. rewrite T, PR. reflexivity.
    - (* b_name *) intros t T V n rest st L FO. destruct n as [|n]; [lia|]. exists n. cbn in L. split; [lia|]. cbn [rev app parseStatement]. unfold nameof in *. rewrite T, V. reflexivity.
    - (* b_self *) intros t T n rest st L FO. destruct n as [|n]; [lia|]. exists n. cbn in L. split; [lia|]. cbn [rev app parseStatement]. rewrite T. reflexivity.
    - (* b_paren *) intros t toks u p T U PH IH R n rest st L FO. destruct n as [|n]; [lia|]. exists n. cbn in L. rewrite app_length in L. cbn in L. split; [lia|].
      destruct (S_phrase _ _ PH) as ([[SN SE SS SD] SC] & _ & NE).
      rewrite sub_step; [|rewrite T, U; constructor|exact SN|exact SE]. rewrite U.
      assert (SU : subStatement G (P n) RightParen (rev toks) = Ok (item_of p)); [|rewrite SU; reflexivity].
      unfold subStatement. destruct (rev toks) as [|y l] eqn:RV; [exfalso; apply NE; rewrite <- (rev_involutive toks), RV; reflexivity|].
      assert (Y : teqb (tt y) Semicolon = false).
      { destruct (teqb (tt y) Semicolon) eqn:Q; [|reflexivity]. exfalso. apply teqb_eq in Q.
        assert (TY : toks = rev l ++ [y]) by (rewrite <- (rev_involutive toks), RV; reflexivity).
        specialize (SS (rev l) y [] TY Q). pose proof (lev_nested Semicolon _ _ mode_semi _ SN) as [LV _]. rewrite TY, lev_app in LV. cbn [lev] in LV.
        rewrite (proj1 mode_semi) in LV by (rewrite Q; apply notBracket_spec; reflexivity). lia. }
      rewrite Y, <- RV. rewrite (IH n) by lia. cbn [obind]. rewrite statement_item_plain by exact R. reflexivity.
    - (* b_list *) intros t toks u parts es T U NE TM IP RS IH n rest st L FO. destruct n as [|n]; [lia|]. exists n. cbn in L. rewrite app_length in L. cbn in L. split; [lia|].
      destruct (S_readings _ _ RS) as (SH & _). pose proof (term_sep _ _ _ TM NE) as SP.
      assert (FN : Forall nested (parts ++ [[]])).
      { apply Forall_app. split; [eapply Forall_proj; [|exact SH]; intros x [X _]; apply X|repeat constructor]. }
      assert (SN : nested toks) by (eapply nested_sep; [exact SP|apply notBracket_spec; reflexivity|exact FN]).
      assert (EN : no_endl toks).
      { eapply endl_sep; [exact SP|discriminate|]. apply Forall_app. split; [eapply Forall_proj; [|exact SH]; intros x [X _]; apply X|repeat constructor]. }
      rewrite sub_step; [|rewrite T, U; constructor|exact SN|exact EN]. rewrite U.
      assert (SU : subStatement G (P n) RightParen (rev toks) = Ok (item_of (N (EList es)))); [|rewrite SU; reflexivity].
      assert (LT : exists y l, rev toks = y :: l /\ tt y = Semicolon).
      { clear - TM NE. induction TM as [|q s ps l S H IH]; [congruence|]. destruct ps as [|q' ps].
        - inversion H; subst. rewrite rev_app_distr. cbn. eauto.
        - destruct IH as (y & l' & E & Y); [discriminate|]. rewrite rev_app_distr. cbn [rev]. rewrite E. cbn. eauto. }
      destruct LT as (y & l & RV & Y). unfold subStatement. rewrite RV, Y, teqb_refl. rewrite <- RV, rev_involutive. unfold parseList.
      rewrite (split_sep Semicolon [LeftParen] [RightParen] mode_list _ _ SP FN).
      + rewrite removelast_last. rewrite (IH n); [reflexivity|].
        eapply Forall_forall. intros q Q. pose proof (sep_bound _ _ _ n SP ltac:(lia)) as SB. rewrite Forall_forall in SB. apply SB. apply in_or_app. left. exact Q.
      + apply Forall_app. split; [|repeat constructor; apply sealed_nil]. eapply Forall_proj; [|exact IP]. intros q IQ a z b E Z. specialize (IQ a z b E Z).
        assert (LV : forall l, lev [LeftParen] [RightParen] l = (count LeftParen l - count RightParen l)%Z).
        { clear. induction l as [|t l IH]; [reflexivity|]. cbn [lev]. rewrite IH, !count_cons. unfold delta. cbn [existsb]. rewrite !orb_false_r.
          destruct (teqb (tt t) LeftParen) eqn:A; [|destruct (teqb (tt t) RightParen); lia].
          assert (X : teqb (tt t) RightParen = false) by (apply teqb_eq in A; apply teqb_neq; congruence). rewrite X. lia. }
        rewrite LV. lia.
    - (* b_lambda0 *) intros t u T U n rest st L FO. destruct n as [|n]; [lia|]. exists n. cbn in L. split; [lia|].
      change [t; u] with (t :: [] ++ [u]). rewrite sub_step; [|rewrite T, U; constructor|constructor|constructor]. rewrite U. reflexivity.
    - (* b_lambda *) intros t toks u parts gs T U NE SP BD IH n rest st L FO. destruct n as [|n]; [lia|]. exists n. cbn in L. rewrite app_length in L. cbn in L. split; [lia|].
      pose proof (S_body _ _ BD) as SH.
      assert (FN : Forall nested parts) by (eapply Forall_proj; [|exact SH]; intros x X; apply X).
      assert (SN : nested toks) by (eapply nested_sep; [exact SP|apply notBracket_spec; reflexivity|exact FN]).
      assert (EN : no_endl toks) by (eapply endl_sep; [exact SP|discriminate|]; eapply Forall_proj; [|exact SH]; intros x X; apply X).
      rewrite sub_step; [|rewrite T, U; constructor|exact SN|exact EN]. rewrite U.
      assert (SU : subStatement G (P n) RightBrace (rev toks) = Ok (item_of (V (FLam gs)))); [|rewrite SU; reflexivity].
      unfold subStatement. destruct (rev toks) as [|y l] eqn:RV; [exfalso; apply NE; rewrite <- (rev_involutive toks), RV; reflexivity|].
      rewrite <- RV, rev_involutive. unfold parseLambda.
      rewrite (split_sep Diamond [LeftBrace] [RightBrace] mode_dia _ _ SP FN) by (eapply Forall_proj; [|exact SH]; intros x X; apply X).
      destruct (IH n (sep_bound _ _ _ n SP ltac:(lia))) as (b & E & DR & _). rewrite E. cbn [obind]. rewrite DR. reflexivity.
    - (* br_none *) intros t u T U. exists t, [], u. split; [reflexivity|]. split; [exact T|]. split; [exact U|]. split; [constructor|]. split; [constructor|]. reflexivity.
    - (* br_some *) intros t toks u parts es T U NE SP RS IH. destruct (S_readings _ _ RS) as (SH & _).
      assert (FN : Forall nested parts) by (eapply Forall_proj; [|exact SH]; intros x [X _]; apply X).
      exists t, toks, u. split; [reflexivity|]. split; [exact T|]. split; [exact U|].
      split; [eapply nested_sep; [exact SP|apply notBracket_spec; reflexivity|exact FN]|].
      split; [eapply endl_sep; [exact SP|discriminate|]; eapply Forall_proj; [|exact SH]; intros x [X _]; apply X|].
      intros n L. unfold subStatement. destruct (rev toks) as [|y l] eqn:RV; [exfalso; apply NE; rewrite <- (rev_involutive toks), RV; reflexivity|].
      rewrite <- RV, rev_involutive. unfold parseBrackets.
      rewrite (split_sep Semicolon _ _ mode_semi _ _ SP FN) by (eapply Forall_proj; [|exact SH]; intros x [X _]; apply X).
      rewrite (IH n) by (eapply sep_bound; eassumption). reflexivity.
    - (* rs_nil *) intros n _. reflexivity.
    - (* rs_cons *) intros part e parts es R IH RS IHS n F. inversion F as [|? ? F1 F2]; subst. cbn [mapM]. rewrite (IH n F1). cbn [obind]. rewrite (IHS n F2). reflexivity.
    - (* gd_plain *) intros part e R IH n L. unfold guardExpr. destruct (S_reading _ _ R) as ([SH SC] & _).
      rewrite (split_sep Colon _ _ mode_col [part] part (sep_one _ _)) by (apply Forall_cons; [first [apply SH|apply SC]|apply Forall_nil]).
      cbn [mapM]. rewrite (IH n L). reflexivity.
    - (* gd_guard *) intros part pc pe c e SP RC IHC RE IHE n L. unfold guardExpr.
      destruct (S_reading _ _ RC) as ([SH1 SC1] & _). destruct (S_reading _ _ RE) as ([SH2 SC2] & _).
      pose proof (sep_bound _ _ _ n SP L) as SB. inversion SB as [|? ? B1 SB']; subst. inversion SB' as [|? ? B2 _]; subst.
      rewrite (split_sep Colon _ _ mode_col _ part SP) by (apply Forall_cons; [first [apply SH1|apply SC1]|apply Forall_cons; [first [apply SH2|apply SC2]|apply Forall_nil]]).
      cbn [mapM]. rewrite (IHC n B1). cbn [obind]. rewrite (IHE n B2). reflexivity.
    - (* bd_end *) intros n F. inversion F as [|? ? F1 _]; subst. exists [Guard None None]. split; [|split; [reflexivity|discriminate]]. destruct n; [cbn in F1; lia|]. reflexivity.
    - (* bd_last *) intros part g GD IH NG n F. inversion F as [|? ? F1 _]; subst. exists [g]. split; [|split; [|discriminate]].
      + cbn [guards]. rewrite (IH n F1). reflexivity.
      + unfold drop_empty_last. cbn. destruct g as [[|] [|]]; try reflexivity. congruence.
    - (* bd_else *) intros part pc pe pt c e t SP RC IHC RE IHE RT IHT n F. inversion F as [|? ? F1 _]; subst. exists [Guard c e; Guard None (Some t)].
      split; [|split; [reflexivity|discriminate]]. cbn [guards]. unfold guardExpr.
      destruct (S_reading _ _ RC) as ([SH1 SC1] & _). destruct (S_reading _ _ RE) as ([SH2 SC2] & _). destruct (S_reading _ _ RT) as ([SH3 SC3] & _).
      pose proof (sep_bound _ _ _ n SP F1) as SB. inversion SB as [|? ? B1 SB']; subst. inversion SB' as [|? ? B2 SB'']; subst. inversion SB'' as [|? ? B3 _]; subst.
      rewrite (split_sep Colon _ _ mode_col _ part SP) by (apply Forall_cons; [first [apply SH1|apply SC1]|apply Forall_cons; [first [apply SH2|apply SC2]|apply Forall_cons; [first [apply SH3|apply SC3]|apply Forall_nil]]]).
      cbn [mapM]. rewrite (IHC n B1). cbn [obind]. rewrite (IHE n B2). cbn [obind]. rewrite (IHT n B3). reflexivity.
    - (* bd_cons *) intros part g parts gs GD IH BD IHB n F. inversion F as [|? ? F1 F2]; subst. destruct (IHB n F2) as (b & E & DR & NE).
      exists (g :: b). split; [|split; [rewrite drop_cons by exact NE; congruence|discriminate]].
      cbn [guards]. rewrite (IH n F1). cbn [obind fst snd]. rewrite E. destruct parts; reflexivity.
  Qed.
  Theorem phrase_parsed : forall toks p, phrase G toks p -> parse_statement G toks = Ok (Some (statement_item p)).
  Proof. intros toks p H. destruct parse_grammar as (_ & PP & _). unfold parse_statement. apply (PP toks p H). lia. Qed.
End Correct.
