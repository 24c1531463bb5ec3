(* P_Session.v -- sentences are parsed and evaluated to their meaning. *)
From Coq Require Import String List Bool ZArith Lia.
From Verif Require Import Base M_Scan S_Scan P_Scan M_Syntax M_Parse S_Parse S_Grammar M_Eval S_Eval P_Eval M_Execute M_Session S_Session Prop_Eval Prop_Grammar Prop_Program Prop_Scan.
Import ListNotations.
Open Scope list_scope.

Section P.
  Context {D X : Type} (L : lang D X) (G : grammar D).
  Local Notation piece := (S_Parse.piece D).
  Fixpoint expr_of (s : sent D) : expr D :=
    match s with
    | Lit l => array_value G (map (fun td => EConst (snd td)) l)
    | Var x => EVar (name_of (g_unicode G) (ts x))
    | Par s => expr_of s
    | Mon f s => EApp (fn_func G f) None (expr_of s) false
    | Dya a f s => EApp (fn_func G f) (Some (expr_of a)) (expr_of s) false
    end.
  Definition fn_pieces (f : fn) : list piece :=
    match f with
    | Prim t => [V (FPrim (sym t))]
    | Derived t op => [V (FPrim (sym t)); Mop (sym op)]
    | Assign x op => [N (EVar (name_of (g_unicode G) (ts x))); Mop (sym op)]
    end.
  Fixpoint pieces (s : sent D) : list piece :=
    match s with
    | Lit _ | Var _ | Par _ => [N (expr_of s)]
    | Mon f s => fn_pieces f ++ pieces s
    | Dya a f s => N (expr_of a) :: fn_pieces f ++ pieces s
    end.
  Fixpoint wordlist (s : sent D) : list piece :=
    match s with
    | Lit _ | Var _ | Par _ => [N (expr_of s)]
    | Mon f s => V (fn_func G f) :: wordlist s
    | Dya a f s => N (expr_of a) :: V (fn_func G f) :: wordlist s
    end.
  Lemma fn_word f : word (fn_pieces f) (V (fn_func G f)).
  Proof.
    destruct f as [t|t op|x op]; cbn [fn_pieces fn_func].
    - constructor. reflexivity.
    - apply (word_mop [V (FPrim (sym t))] (V (FPrim (sym t))) (sym op)). constructor. reflexivity.
    - apply (word_mop [N (EVar (name_of (g_unicode G) (ts x)))] (N (EVar (name_of (g_unicode G) (ts x)))) (sym op)). constructor. reflexivity.
  Qed.
  Lemma sent_wordlist s : words (pieces s) (wordlist s).
  Proof.
    assert (W1 : forall e : expr D, words [N e] [N e]) by (intros e; apply (words_cons [N e] (N e) [] []); [constructor; reflexivity|constructor]).
    induction s as [l|x|s IH|f s IH|a IHa f s IH]; cbn [pieces wordlist]; try apply W1.
    - apply words_cons; [apply fn_word|exact IH].
    - apply (words_cons [N (expr_of a)] (N (expr_of a))); [constructor; reflexivity|]. apply words_cons; [apply fn_word|exact IH].
  Qed.
  Lemma sent_value s : value_of (wordlist s) (expr_of s).
  Proof. induction s as [l|x|s IH|f s IH|a IHa f s IH]; cbn [wordlist expr_of]; constructor; exact IH. Qed.

  (* every operator is monadic and followed by an operand *)
  Fixpoint easy (l : list piece) : Prop :=
    match l with
    | [] => True
    | N _ :: l' | V _ :: l' => easy l'
    | Mop _ :: l' => (match l' with [] => True | x :: _ => operand x = true end) /\ easy l'
    | Dop _ :: _ => False
    end.
  Lemma easy_app_r a : forall b, easy (a ++ b) -> easy b.
  Proof. induction a as [|x a IH]; intros b H; [exact H|]. apply IH. destruct x; cbn [easy app] in H; tauto. Qed.
  Lemma easy_tame l : easy l -> tame l.
  Proof.
    intros H a m b -> K. apply easy_app_r in H. destruct K as [p q r|p x q Hx|p x q y Hx Hy|p x y Hx Hy]; cbn [app easy] in H.
    - destruct H as [H _]. discriminate H.
    - destruct x; try discriminate Hx; cbn [easy] in H; tauto.
    - destruct x; try discriminate Hx; cbn [easy] in H; destruct H as (_ & H & _); rewrite Hy in H; discriminate H.
    - exact H.
  Qed.
  Lemma pieces_head s : exists x l, pieces s = x :: l /\ operand x = true.
  Proof.
    destruct s as [l|x|s|f s|a f s]; cbn [pieces]; try (do 2 eexists; split; reflexivity). destruct f; cbn [fn_pieces app]; do 2 eexists; split; reflexivity.
  Qed.
  Lemma easy_fn f l : easy l -> (match l with [] => True | x :: _ => operand x = true end) -> easy (fn_pieces f ++ l).
  Proof. intros H K. destruct f; cbn [fn_pieces app easy]; auto. Qed.
  Lemma sent_easy s : easy (pieces s).
  Proof.
    induction s as [l|x|s IH|f s IH|a IHa f s IH]; cbn [pieces easy]; auto; destruct (pieces_head s) as (x & l & E & Hx); apply easy_fn; try exact IH; rewrite E; exact Hx.
  Qed.
  Lemma sent_end s : exists l e, pieces s = l ++ [N e].
  Proof.
    induction s as [l|x|s IH|f s IH|a IHa f s IH]; cbn [pieces].
    - exists [], (expr_of (Lit l)). reflexivity.
    - exists [], (expr_of (Var x)). reflexivity.
    - exists [], (expr_of (Par s)). reflexivity.
    - destruct IH as (l & e & ->). exists (fn_pieces f ++ l), e. rewrite app_assoc. reflexivity.
    - destruct IH as (l & e & ->). exists (N (expr_of a) :: fn_pieces f ++ l), e. cbn [app]. rewrite app_assoc. reflexivity.
  Qed.
  Lemma sent_no_train s : ~ ends_in_train (pieces s).
  Proof. intros (a & t & _ & E). destruct (sent_end s) as (l & e & E'). rewrite E' in E. apply app_inj_tail in E. destruct E as [_ E]. discriminate E. Qed.

  Lemma literal_atoms l : Forall (is_literal L G) l -> atoms G (map fst l) (map (fun td => EConst (snd td)) l).
  Proof.
    induction 1 as [|[t d] l [H _] F IH]; cbn [map fst snd]; [constructor|]. cbn [fst snd] in H.
    apply (as_cons G t [EConst d]); [|exact IH|].
    - destruct H as [[H1 H2]|[H1 H2]]; [apply a_number; assumption|]. subst d. apply a_string. exact H1.
    - intros K. exfalso. destruct H as [[H1 _]|[H1 _]]; rewrite H1 in K; discriminate K.
  Qed.
  Lemma lit_base l : l <> [] -> Forall (is_literal L G) l -> base G (map fst l) (N (expr_of (Lit l))).
  Proof. intros N0 F. cbn [expr_of]. apply b_array; [destruct l; [contradiction|discriminate]|apply literal_atoms; exact F]. Qed.
  Lemma var_base x : is_variable G x -> base G [x] (N (expr_of (Var x))).
  Proof.
    intros [H1 H2]. cbn [expr_of]. apply (b_array G [x] [EVar (name_of (g_unicode G) (ts x))]); [discriminate|].
    apply (as_cons G x [EVar (nameof G x)] [] []); [apply a_var; assumption|constructor|]. intros K. rewrite H1 in K. discriminate K.
  Qed.
  Lemma apart_nil a : apart G a []. Proof. intros a' t u b' _ E. discriminate E. Qed.
  (* a list of words that ends with one that is not part of an array is apart from everything *)
  Lemma apart_end a t b : ~ in_array G t -> apart G (a ++ [t]) b.
  Proof. intros H a' t' u b' E _ [K _]. apply app_inj_tail in E. destruct E as [_ <-]. exact (H K). Qed.
  Lemma apart_start a t b : ~ in_array G t -> apart G a (t :: b).
  Proof. intros H a' t' u b' _ E [_ K]. injection E as <- _. exact (H K). Qed.
  Lemma symbol_not t : tt t = Symbol -> ~ in_array G t.
  Proof. intros H [K|[K|[K|[K _]]]]; rewrite H in K; discriminate K. Qed.
  Lemma paren_not t : tt t = LeftParen \/ tt t = RightParen -> ~ in_array G t.
  Proof. intros [H|H] [K|[K|[K|[K _]]]]; rewrite H in K; discriminate K. Qed.
  Lemma mop_chunk nx op : is_monadic_operator G op -> chunk G nx [op] [Mop (sym op)].
  Proof. intros (H1 & H2 & H3 & H4). apply ch_operator. apply o_monadic; assumption. Qed.
  Lemma fn_chunks f toks ps : fn_ok G f -> chunks G toks ps -> chunks G (fn_words f ++ toks) (fn_pieces f ++ ps).
  Proof.
    intros H K. destruct f as [t|t op|x op]; cbn [fn_words fn_pieces fn_ok app] in *.
    - destruct H as [H1 H2]. apply (cs_cons G [t] [V (FPrim (sym t))] toks ps); [apply ch_base, b_prim; assumption|exact K|apply (apart_end [] t); apply symbol_not; exact H1].
    - destruct H as ([H1 H2] & Ho & _). apply (cs_cons G [t] [V (FPrim (sym t))] (op :: toks) (Mop (sym op) :: ps)); [apply ch_base, b_prim; assumption| |apply (apart_end [] t); apply symbol_not; exact H1].
      apply (cs_cons G [op] [Mop (sym op)] toks ps); [apply mop_chunk; exact Ho|exact K|apply (apart_end [] op); apply symbol_not; apply Ho].
    - destruct H as (Hx & Ho & _). apply (cs_cons G [x] [N (expr_of (Var x))] (op :: toks) (Mop (sym op) :: ps)); [apply ch_base, var_base; exact Hx| |apply apart_start; apply symbol_not; apply Ho].
      apply (cs_cons G [op] [Mop (sym op)] toks ps); [apply mop_chunk; exact Ho|exact K|apply (apart_end [] op); apply symbol_not; apply Ho].
  Qed.
  Lemma fn_first f : fn_ok G f -> (match f with Assign _ _ => False | _ => True end) -> exists t l, fn_words f = t :: l /\ ~ in_array G t.
  Proof. destruct f as [t|t op|x op]; intros H N0; [| |destruct N0]; do 2 eexists; (split; [reflexivity|]); apply symbol_not; apply H. Qed.
  Lemma sent_phrase s : chunks G (sent_words s) (pieces s) -> phrase G (sent_words s) (N (expr_of s)).
  Proof.
    intros Hc. apply (ph G _ (pieces s)); [exact Hc| |apply easy_tame, sent_easy|apply sent_no_train]. eapply s_value; [apply sent_wordlist|apply sent_value].
  Qed.
  Lemma sent_chunks s : sent_ok L G s -> chunks G (sent_words s) (pieces s) /\ match s with Lit _ | Var _ | Par _ => base G (sent_words s) (N (expr_of s)) | _ => True end.
  Proof.
    assert (One : forall toks x, base G toks x -> chunks G toks [x]).
    { intros toks x H. rewrite <- (app_nil_r toks). change [x] with ([x] ++ []). apply cs_cons; [apply ch_base; exact H|constructor|apply apart_nil]. }
    induction s as [l|x|s IH|f s IH|a IHa f s IH]; cbn [sent_ok pieces]; intros H.
    - destruct H as [H1 H2]. assert (B : base G (sent_words (Lit l)) (N (expr_of (Lit l)))) by (apply lit_base; assumption). split; [apply One|]; exact B.
    - assert (B : base G [x] (N (expr_of (Var x)))) by (apply var_base, H). split; [apply One|]; exact B.
    - assert (B : base G (sent_words (Par s)) (N (expr_of (Par s)))).
      { cbn [sent_words expr_of]. apply b_paren; [reflexivity|reflexivity|apply sent_phrase, IH, H|reflexivity]. }
      split; [apply One|]; exact B.
    - destruct H as [H1 H2]. split; [|exact Logic.I]. cbn [sent_words]. apply fn_chunks; [exact H1|apply IH; exact H2].
    - destruct H as (Ha & Hok & Hf & Hs). split; [|exact Logic.I]. cbn [sent_words].
      assert (Hf' : fn_ok G f /\ match f with Assign _ _ => False | _ => True end) by (destruct f; [split; auto|split; auto|destruct Hf]). destruct Hf' as [Hf1 Hf2].
      destruct (IHa Hok) as [_ Ba]. assert (Ba' : base G (sent_words a) (N (expr_of a))) by (destruct a; try contradiction; exact Ba).
      destruct (fn_first f Hf1 Hf2) as (t & l & E & Nt).
      change (N (expr_of a) :: fn_pieces f ++ pieces s) with ([N (expr_of a)] ++ (fn_pieces f ++ pieces s)).
      apply cs_cons; [apply ch_base; exact Ba'|apply fn_chunks; [exact Hf1|apply IH; exact Hs]|rewrite E; apply apart_start; exact Nt].
  Qed.
  Lemma sent_parses s : sent_ok L G s -> phrase G (sent_words s) (N (expr_of s)).
  Proof. intros H. apply sent_phrase, (proj1 (sent_chunks s H)). Qed.
  Lemma line_parses l : l <> [] -> Forall (sent_ok L G) l -> parse G (line_words l) = Ok (map (fun s => Some (expr_of s)) l).
  Proof.
    intros N0 F. apply C90_program. induction l as [|s l IH]; [contradiction|]. inversion F as [|? ? Hs Hl]; subst. pose proof (sent_parses s Hs) as P.
    destruct l as [|s' l]; [exact (pg_last G _ _ P)|].
    change (line_words (s :: s' :: l)) with (sent_words s ++ Tok Diamond [8900%Z] :: line_words (s' :: l)).
    cbn [map]. apply pg_more; [exact (rd_value G _ _ P)|reflexivity|]. apply IH; [discriminate|exact Hl].
  Qed.

  (* evaluation *)
  Lemma ends_const d s : evaluates L (EConst d) s (VD d) s. Proof. exists 1%nat. reflexivity. Qed.
  Lemma ends_row l s : l <> [] -> Forall (is_literal L G) l -> evaluates L (expr_of (Lit l)) s (row L (map snd l)) s.
  Proof.
    intros N0 F. exists 2%nat. destruct l as [|[t d] [|[t2 d2] l]]; [contradiction|reflexivity|].
    cbn [expr_of map array_value snd row].
    assert (E : forall l, Forall (is_literal L G) l -> forall s, mmap (fun e => do v <- interp L 1 (TEval e); if isScalar L v then mret v else mfail) (map (fun td : token * D => EConst (snd td)) l) s = Some (Ok (map (fun td => VD (snd td)) l), s)).
    { clear. induction 1 as [|[t d] l [_ Hd] F IH]; intros s; [reflexivity|]. cbn [map mmap snd] in *. unfold mbind at 1. unfold mbind at 1. cbn [interp step mret]. cbn [isScalar]. rewrite Hd. cbn [negb mret].
      unfold mbind. rewrite IH. reflexivity. }
    pose proof (E _ F s) as E'. cbn [map snd] in E'. 
    change (interp L 2 (TEval (EArray (EConst d :: EConst d2 :: map (fun td => EConst (snd td)) l))) s)
      with (mbind (mmap (fun e => do v <- interp L 1 (TEval e); if isScalar L v then mret v else mfail) (EConst d :: EConst d2 :: map (fun td => EConst (snd td)) l)) (fun vs => mret (VD (l_mkarr L vs))) s).
    unfold mbind at 1. rewrite E'. cbn [mret]. do 5 f_equal. rewrite !map_map. reflexivity.
  Qed.
  Lemma fn_is_function f : fn_ok G f -> match f with Assign _ _ => False | _ => True end -> is_function (fn_func G f).
  Proof. destruct f as [t|t op|x op]; cbn [fn_ok fn_func]; intros H N0; [exact Logic.I| |destruct N0]. cbn. destruct H as (_ & _ & H). exact H. Qed.
  Lemma sent_means s : sent_ok L G s -> forall st o st', meaning L G s st o st' <-> ends L (TEval (expr_of s)) st o st'.
  Proof.
    induction s as [l|x|s IH|f s IH|a IHa f s IH]; cbn [sent_ok]; intros H st o st'.
    - destruct H as [H1 H2]. pose proof (ends_row l st H1 H2) as E. split.
      + intros M. inversion M; subst. exact E.
      + intros K. destruct (C59_deterministic _ _ _ _ _ _ _ E K) as [<- <-]. constructor.
    - assert (E : evaluates L (expr_of (Var x)) st (variable L G st x) st).
      { exists 1%nat. cbn [expr_of interp step]. unfold variable. destruct (Lookup L st (name_of (g_unicode G) (ts x))); reflexivity. }
      split.
      + intros M. inversion M; subst. exact E.
      + intros K. destruct (C59_deterministic _ _ _ _ _ _ _ E K) as [<- <-]. constructor.
    - cbn [expr_of]. rewrite <- (IH H). split; [intros M; inversion M; subst; assumption|constructor; assumption].
    - destruct H as [H1 H2]. cbn [expr_of]. rewrite (C59_monadic L (fn_func G f) (expr_of s) st o st'). split.
      + intros M. inversion M; subst.
        * right. do 2 eexists. split; [apply IH; eassumption|assumption].
        * left. split; [assumption|apply IH; assumption].
      + intros [[F K]|(v & s1 & K & C)]; [apply m_mon_failed; [apply IH; assumption|exact F]|]. eapply m_mon; [apply IH; [exact H2|exact K]|exact C].
    - destruct H as (Ha & Hok & Hf & Hs). cbn [expr_of].
      assert (Hf' : fn_ok G f /\ match f with Assign _ _ => False | _ => True end) by (destruct f; [split; auto|split; auto|destruct Hf]). destruct Hf' as [Hf1 Hf2].
      rewrite (C59_right_to_left L (fn_func G f) (expr_of a) (expr_of s) st o st' (fn_is_function f Hf1 Hf2)). split.
      + intros M. inversion M; subst.
        * right. right. do 4 eexists. split; [apply IH; eassumption|]. split; [apply IHa; eassumption|assumption].
        * left. split; [assumption|apply IH; assumption].
        * right. left. do 2 eexists. split; [apply IH; eassumption|]. split; [assumption|apply IHa; assumption].
      + intros [[F K]|[(v & s1 & K & F & K2)|(v & s1 & w & s2 & K & K2 & C)]].
        * apply m_dya_right; [apply IH; assumption|exact F].
        * eapply m_dya_left; [apply IH; [exact Hs|exact K]|apply IHa; [exact Hok|exact K2]|exact F].
        * eapply m_dya; [apply IH; [exact Hs|exact K]|apply IHa; [exact Hok|exact K2]|exact C].
  Qed.
  Lemma assign_iff s : sent_ok L G s -> isAssign (expr_of s) = is_assignment s.
  Proof.
    induction s as [l|x|s IH|f s IH|a IHa f s IH]; cbn [sent_ok expr_of is_assignment]; intros H.
    - destruct l as [|? [|? l]]; reflexivity.
    - reflexivity.
    - apply IH, H.
    - destruct H as [H _]. destruct f as [t|t op|x op]; cbn [fn_func isAssign fn_ok] in *; [reflexivity| |].
      + destruct H as (_ & _ & H). apply String.eqb_neq. exact H.
      + destruct H as (_ & _ & H). apply String.eqb_eq. exact H.
    - destruct H as (_ & _ & H & _). destruct f as [t|t op|x op]; cbn [fn_func isAssign fn_ok] in *; [reflexivity| |destruct H].
      destruct H as (_ & _ & H). apply String.eqb_neq. exact H.
  Qed.
  Lemma session_runs l : Forall (sent_ok L G) l -> forall st o st', session L G l st o st' <-> runs L (map expr_of l) st o st'.
  Proof.
    induction 1 as [|s l Hs F IH]; intros st o st'; cbn [map].
    - split; intros M; inversion M; subst; constructor.
    - assert (SH : forall v (u : M_Eval.st D X), printed (expr_of s) v u = shown s v u) by (intros v u; unfold printed, shown; rewrite (assign_iff s Hs); reflexivity).
      split; intros M; inversion M; subst.
      + eapply run_statement; [apply sent_means; eassumption|rewrite (assign_iff s Hs); assumption|rewrite SH; apply IH; assumption].
      + eapply run_failed; [apply sent_means; eassumption|assumption].
      + eapply run_nothing; [apply sent_means; eassumption|rewrite (assign_iff s Hs); assumption].
      + eapply se_value; [apply sent_means; eassumption|rewrite <- (assign_iff s Hs); eassumption|rewrite <- SH; apply IH; assumption].
      + eapply se_failed; [apply sent_means; eassumption|assumption].
      + eapply se_nothing; [apply sent_means; eassumption|rewrite <- (assign_iff s Hs); assumption].
  Qed.
End P.
