(* P_ParseSafe.v -- the parser does not panic unless brackets follow brackets. *)
From Coq Require Import String List Bool ZArith Lia.
From Verif Require Import Base M_Scan M_Syntax M_Parse S_Parse P_Parse.
Import ListNotations.
Open Scope list_scope.

Section Safe.
  Context {D : Type} (G : grammar D).
  Local Notation item := (@item D).
  Local Notation stack := (@stack D).
  (* what the type assertions of the reductions rely on *)
  Definition good (i : item) : Prop :=
    match ic i with
    | noun => True
    | verb => asFunction (ie i) <> None
    | _ => exists op lo ro, ie i = EFn (FDer op lo ro)
    end.
  Definition noidx (i : item) : Prop := is_idx (ie i) = None.
  Definition bad (i : item) : Prop := ic i = adverb /\ exists s, ie i = EIdx s.
  Definition topok (st : stack) : Prop := match st with [] => False | i :: _ => noidx i end.
  Definition fine (st : stack) : Prop := Forall good st /\ topok st.
  (* before a reduction *)
  Definition ready (st : stack) : Prop := Forall good st \/ exists b st', st = b :: st' /\ bad b /\ Forall good st'.
  (* between two reductions *)
  Definition whole (st : stack) : Prop := st = [] \/ fine st \/ exists b st', st = b :: st' /\ bad b /\ Forall good st'.
  Lemma whole_ready st : whole st -> ready st.
  Proof. intros [->|[[F _]|H]]; [left; constructor|left; exact F|right; exact H]. Qed.

  Lemma good_der op lo ro c : c <> noun -> good (mkItem (EFn (FDer op lo ro)) c).
  Proof. intros H. unfold good. cbn [ic ie]. destruct c; try congruence; try discriminate; eauto. Qed.
  Lemma Forall_firstn_ {A} (P : A -> Prop) n l : Forall P l -> Forall P (firstn n l).
  Proof. intros H. revert n. induction H; intros [|n]; cbn [firstn]; constructor; auto. Qed.
  Lemma Forall_skipn_ {A} (P : A -> Prop) n l : Forall P l -> Forall P (skipn n l).
  Proof. intros H. revert n. induction H; intros [|n]; cbn [skipn]; try constructor; auto. Qed.
  Lemma Forall_nth_ {A} (P : A -> Prop) n l x : Forall P l -> nth_error l n = Some x -> P x.
  Proof. intros H E. apply nth_error_In in E. rewrite Forall_forall in H. auto. Qed.

  Lemma brackets_safe i st : good i -> noidx i -> ready st ->
    resolveBrackets (i :: st) = Err \/ exists st', resolveBrackets (i :: st) = Ok st' /\ fine st'.
  Proof.
    intros Gi Ni R. destruct st as [|j st].
    { right. exists [i]. split; [reflexivity|]. split; [repeat constructor; exact Gi|exact Ni]. }
    assert (GS : Forall good st). { destruct R as [R|(b & st' & E & _ & R)]; [inversion R; assumption|injection E as -> ->; exact R]. }
    destruct j as [e c]. destruct (is_idx e) as [spec|] eqn:Ie.
    - destruct e; try discriminate Ie. clear Ie. cbn [resolveBrackets]. destruct i as [e ci]. cbn [ie ic] in *. unfold noidx in Ni. cbn [ie] in Ni.
      assert (N : forall x, ci = noun -> fine (mkItem (EApp (FPrim index_prim) (Some (EIdx l)) x false) ci :: st)).
      { intros x ->. split; [constructor; [exact Logic.I|exact GS]|reflexivity]. }
      destruct e as [d|ar|x|f|f lf r sel|es|sp]; try discriminate Ni; try (destruct ci; [right; eexists; split; [reflexivity|apply N; reflexivity]|left; reflexivity..]); cycle 1.
      all: try (destruct ci; first [left; reflexivity | right; eexists; split; [reflexivity|apply N; reflexivity]]).
      destruct f; try (destruct ci; first [left; reflexivity | right; eexists; split; [reflexivity|apply N; reflexivity]]).
      + destruct l as [|a [|]]; try (left; reflexivity). right. eexists. split; [reflexivity|]. split; [constructor; [apply good_der; discriminate|exact GS]|reflexivity].
      + destruct l as [|a [|]]; try (left; reflexivity). right. eexists. split; [reflexivity|].
        split; [|exact Ni]. constructor; [exact Gi|]. constructor; [apply good_der; discriminate|]. constructor; [exact Logic.I|exact GS].
    - right. exists (i :: mkItem e c :: st). split.
      + destruct e; try reflexivity. discriminate Ie.
      + split; [|exact Ni]. constructor; [exact Gi|]. destruct R as [R|(b & st' & E & [_ [s B]] & _)]; [exact R|]. injection E as <- _. cbn in B. subst e. discriminate Ie.
  Qed.
  (* the result of a reduction: fine, and shorter if something was reduced *)
  Definition shrinks (st : stack) (r : outcome (stack * bool)) : Prop :=
    exists st' b, r = Ok (st', b) /\ fine st' /\ (length st' <= length st)%nat /\ (b = true -> (length st' < length st)%nat).
  Lemma fine_put i k st x : fine st -> good x -> noidx x -> (i < length st)%nat -> fine (firstn i st ++ x :: skipn k st).
  Proof.
    intros [F T] Gx Nx L. split.
    - apply Forall_app. split; [apply Forall_firstn_, F|]. constructor; [exact Gx|apply Forall_skipn_, F].
    - destruct i; [exact Nx|]. destruct st; [destruct T|]. exact T.
  Qed.
  Lemma length_put i k (st : stack) x : (i < k)%nat -> (k <= length st)%nat -> length (firstn i st ++ x :: skipn k st) = (length st - k + i + 1)%nat.
  Proof. intros A B. rewrite app_length, firstn_length. cbn [length]. rewrite skipn_length. lia. Qed.
  Lemma mop_safe n : forall i st, fine st -> (length st < n + i)%nat -> (0 < n)%nat -> shrinks st (mopReduce n i st).
  Proof.
    induction n as [|n IH]; intros i st F L P; [lia|]. cbn [mopReduce].
    assert (STOP : shrinks st (Ok (st, false))) by (exists st, false; repeat split; [apply F|apply F|lia|discriminate]).
    destruct (nth_error st i) as [a|] eqn:Ea; [|exact STOP]. destruct (nth_error st (S i)) as [[e c]|] eqn:Eb; [|exact STOP].
    destruct c; try exact STOP. destruct (_ || _); [exact STOP|].
    pose proof (Forall_nth_ _ _ _ _ (proj1 F) Eb) as (op & lo & ro & E). cbn in E. subst e.
    pose proof (proj1 (nth_error_Some st (S i)) ltac:(congruence)) as LS.
    set (st1 := firstn i st ++ mkItem (EFn (FDer op (Some (ie a)) ro)) verb :: skipn (2 + i) st).
    assert (L1 : length st1 = (length st - 1)%nat) by (unfold st1; rewrite length_put by lia; lia).
    destruct (IH (S i) st1) as (st2 & b & E2 & F2 & L2 & _).
    - apply fine_put; [exact F|apply good_der; discriminate|reflexivity|lia].
    - lia.
    - lia.
    - fold st1. rewrite E2. exists st2, true. cbn [obind fst]. repeat split; [apply F2|apply F2|lia|lia].
  Qed.
  Lemma dop_safe i st : fine st -> shrinks st (dopReduce i st).
  Proof.
    intros F. unfold dopReduce. assert (STOP : shrinks st (Ok (st, false))) by (exists st, false; repeat split; [apply F|apply F|lia|discriminate]).
    destruct (nth_error st i) as [a|] eqn:Ea; [|exact STOP]. destruct (nth_error st (S i)) as [[e c]|] eqn:Eb; [|exact STOP].
    destruct c; try exact STOP. destruct (nth_error st (2 + i)) as [b|] eqn:Ec; [|exact STOP]. destruct (_ || _); [exact STOP|].
    pose proof (Forall_nth_ _ _ _ _ (proj1 F) Eb) as (op & lo & ro & E). cbn in E. subst e.
    pose proof (proj1 (nth_error_Some st (2 + i)) ltac:(congruence)) as LS.
    eexists _, true. split; [reflexivity|]. split; [apply fine_put; [exact F|apply good_der; discriminate|reflexivity|lia]|].
    rewrite length_put by lia. lia.
  Qed.
  Lemma operators_safe n : forall last st, fine st -> (length st < n)%nat -> exists st', resolveOperators n last st = Ok st' /\ fine st'.
  Proof.
    induction n as [|n IH]; intros last st F L; [lia|]. cbn [resolveOperators].
    assert (A : shrinks st (if last then mopReduce (S (length st)) 0 st else Ok (st, false))).
    { destruct last; [apply mop_safe; [exact F|lia|lia]|]. exists st, false. repeat split; [apply F|apply F|lia|discriminate]. }
    destruct A as (s1 & b1 & -> & F1 & L1 & B1). cbn [obind fst snd].
    destruct (mop_safe (S (length st)) 1 s1 F1 ltac:(lia) ltac:(lia)) as (s2 & b2 & -> & F2 & L2 & B2). cbn [obind fst snd].
    assert (A : shrinks s2 (if last then dopReduce 0 s2 else Ok (s2, false))).
    { destruct last; [apply dop_safe, F2|]. exists s2, false. repeat split; [apply F2|apply F2|lia|discriminate]. }
    destruct A as (s3 & b3 & -> & F3 & L3 & B3). cbn [obind fst snd].
    destruct (dop_safe 1 s3 F3) as (s4 & b4 & -> & F4 & L4 & B4). cbn [obind fst snd].
    destruct (b1 || b2 || b3 || b4) eqn:B; [|eauto]. apply IH; [exact F4|].
    destruct b1; [specialize (B1 eq_refl); lia|]. destruct b2; [specialize (B2 eq_refl); lia|]. destruct b3; [specialize (B3 eq_refl); lia|]. destruct b4; [specialize (B4 eq_refl); lia|]. discriminate B.
  Qed.
  (* ---- the right end ---- *)
  Definition fine_r (rs : stack) : Prop := fine (rev rs).
  Lemma fine_r_merge x rs rest k : fine_r rs -> (exists a, rs = a ++ rest /\ length a = S k) -> good x -> noidx x -> fine_r (x :: rest).
  Proof.
    intros [F T] (a & -> & La) Gx Nx. unfold fine_r, fine. cbn [rev]. rewrite rev_app_distr in *. apply Forall_app in F. destruct F as [F1 F2]. split.
    - apply Forall_app. split; [exact F1|]. repeat constructor. exact Gx.
    - destruct (rev rest) eqn:E; [exact Nx|]. exact T.
  Qed.
  Lemma good_r rs i : fine_r rs -> In i rs -> good i.
  Proof. intros [F _] H. rewrite Forall_forall in F. apply F. apply in_rev in H. exact H. Qed.
  Lemma class_eqb_verb c : class_eqb c verb = true -> c = verb.
  Proof. destruct c; try discriminate; reflexivity. Qed.
  Lemma reducefA_safe last rs : fine_r rs -> reducefA last rs = Ok None \/ exists rs', reducefA last rs = Ok (Some rs') /\ fine_r rs' /\ (length rs' < length rs)%nat.
  Proof.
    intros F. unfold reducefA. destruct rs as [|r [|f rest]]; try (left; reflexivity).
    match goal with |- context [if ?c then _ else _] => destruct c eqn:E end; [|left; reflexivity].
    apply andb_true_iff in E. destruct E as [E _]. apply andb_true_iff in E. destruct E as [_ E]. apply class_eqb_verb in E.
    pose proof (good_r _ f F ltac:(right; left; reflexivity)) as Gf. unfold good in Gf. rewrite E in Gf.
    destruct (asFunction (ie f)) as [fn|]; [|congruence]. right. eexists. split; [reflexivity|]. split; [|cbn; lia].
    eapply (fine_r_merge _ _ rest 1); [exact F|exists [r; f]; split; reflexivity|exact Logic.I|reflexivity].
  Qed.
  Lemma reduceAfA_safe last rs : fine_r rs -> reduceAfA last rs = Ok None \/ exists rs', reduceAfA last rs = Ok (Some rs') /\ fine_r rs' /\ (length rs' < length rs)%nat.
  Proof.
    intros F. unfold reduceAfA. destruct rs as [|r [|f [|l rest]]]; try (left; reflexivity).
    match goal with |- context [if ?c then _ else _] => destruct c eqn:E end; [|left; reflexivity].
    apply andb_true_iff in E. destruct E as [E _]. apply andb_true_iff in E. destruct E as [_ E]. apply class_eqb_verb in E.
    pose proof (good_r _ f F ltac:(right; left; reflexivity)) as Gf. unfold good in Gf. rewrite E in Gf.
    destruct (asFunction (ie f)) as [fn|]; [|congruence]. right. eexists. split; [reflexivity|]. split; [|cbn; lia].
    eapply (fine_r_merge _ _ rest 2); [exact F|exists [r; f; l]; split; reflexivity|exact Logic.I|reflexivity].
  Qed.
  Lemma arrays_safe n : forall last rs, fine_r rs -> (length rs < n)%nat -> exists rs', resolveArrays n last rs = Ok rs' /\ fine_r rs'.
  Proof.
    induction n as [|n IH]; intros last rs F L; [lia|]. cbn [resolveArrays].
    destruct (reducefA_safe last rs F) as [->|(r1 & -> & F1 & L1)]; cbn [obind].
    - destruct (reduceAfA_safe last rs F) as [->|(r2 & -> & F2 & L2)]; cbn [obind]; [eauto|]. apply IH; [exact F2|lia].
    - destruct (reduceAfA_safe last r1 F1) as [->|(r2 & -> & F2 & L2)]; cbn [obind]; (apply IH; [assumption|lia]).
  Qed.
  Lemma reduceff_safe last rs rs' : fine_r rs -> reduceff last rs = Some rs' -> fine_r rs' /\ (length rs' < length rs)%nat.
  Proof.
    intros F. unfold reduceff. destruct rs as [|r0 [|r1 rest]]; try discriminate.
    match goal with |- context [if ?c then _ else _] => destruct c eqn:E end; [|discriminate]. intros H. injection H as <-. split; [|cbn; lia].
    eapply (fine_r_merge _ _ rest 1); [exact F|exists [r0; r1]; split; reflexivity|intros X; discriminate X|reflexivity].
  Qed.
  Lemma reduceffs_safe n : forall last rs, fine_r rs -> (length rs < n)%nat -> exists rs', reduceffs n last rs = Ok rs' /\ fine_r rs'.
  Proof.
    induction n as [|n IH]; intros last rs F L; [lia|]. cbn [reduceffs]. destruct (reduceff last rs) as [r|] eqn:E; [|eauto].
    destruct (reduceff_safe _ _ _ F E) as [F1 L1]. apply IH; [exact F1|lia].
  Qed.
  Lemma functions_safe last rs : fine_r rs -> exists rs', resolveFunctions last rs = Ok rs' /\ fine_r rs'.
  Proof.
    intros F. unfold resolveFunctions. destruct (reduceffs_safe (S (length rs)) last rs F ltac:(lia)) as (r & -> & F1). cbn [obind].
    assert (K : exists rs', Ok r = Ok rs' /\ fine_r rs') by eauto.
    destruct r as [|[e c] [|[a c2] [|]]]; try exact K; try (destruct e as [| | |[]| | |]; exact K).
    - destruct e as [| | |[]| | |]; try exact K. destruct c2; try exact K.
      destruct (_ && _); [|exact K]. eexists. split; [reflexivity|]. split; [repeat constructor; intros X; discriminate X|reflexivity].
    - destruct e as [| | |[]| | |]; try exact K; destruct c2; exact K.
  Qed.
  (* ---- a reduction ---- *)
  Lemma reduce_safe last i st : good i -> noidx i -> ready st ->
    reduce last (i :: st) = Err \/ exists st', reduce last (i :: st) = Ok st' /\ fine st' /\ (last = true -> length st' = 1%nat).
  Proof.
    intros Gi Ni R. unfold reduce. destruct i as [e c].
    assert (E : forall X Y : outcome stack, (match e with EIdx _ => X | _ => Y end) = Y) by (intros; destruct e; try reflexivity; discriminate Ni).
    rewrite E. clear E.
    destruct (brackets_safe _ _ Gi Ni R) as [->|(s1 & -> & F1)]; [left; reflexivity|]. cbn [obind].
    destruct (operators_safe (S (length s1)) last s1 F1 ltac:(lia)) as (s2 & -> & F2). cbn [obind].
    destruct (arrays_safe (S (length s2)) last (rev s2)) as (r3 & -> & F3); [unfold fine_r; rewrite rev_involutive; exact F2|rewrite rev_length; lia|]. cbn [obind].
    destruct (functions_safe last r3 F3) as (r4 & -> & F4). cbn [obind].
    destruct (last && _) eqn:L; [left; reflexivity|]. right. eexists. split; [reflexivity|]. split; [exact F4|]. intros ->. cbn [andb] in L. rewrite rev_length.
    destruct F4 as [_ T]. destruct r4 as [|x [|y r4]]; [destruct T|reflexivity|]. cbn [length] in L. lia.
  Qed.
  Lemma reduce_bad b st : bad b -> reduce false (b :: st) = Ok (b :: st).
  Proof. intros [_ [s E]]. destruct b as [e c]. cbn in E. subst e. reflexivity. Qed.
  Lemma link_safe st : fine st -> length st = 1%nat -> exists i, rev (linkFuncAssign st) = [i] /\ good i /\ noidx i.
  Proof.
    intros [F T] L. destruct st as [|i [|]]; try discriminate L. inversion F as [|? ? Gi _]; subst.
    assert (K : exists i0, rev [i] = [i0] /\ good i0 /\ noidx i0) by (exists i; auto).
    destruct i as [e c]. destruct e as [| | |f| | |]; try exact K. destruct f as [| | | |t| |]; try exact K.
    destruct t as [|e1 [|g [|]]]; try exact K; try (destruct e1 as [| | |[]| | |]; exact K).
    destruct e1 as [| | |f1| | |]; try exact K. destruct f1; try exact K. cbn [linkFuncAssign]. destruct (String.eqb _ _); [|exact K].
    eexists. split; [reflexivity|]. split; [intros X; discriminate X|reflexivity].
  Qed.

  (* ---------------- tokens ---------------- *)
  Definition infix (p l : list token) : Prop := exists a b, l = a ++ p ++ b.
  Lemma infix_refl l : infix l l.  Proof. exists [], []. rewrite app_nil_r. reflexivity. Qed.
  Lemma infix_trans p q l : infix p q -> infix q l -> infix p l.
  Proof. intros (a & b & ->) (c & d & ->). exists (c ++ a), (b ++ d). rewrite <- !app_assoc. reflexivity. Qed.
  Lemma infix_rev p l : infix p l -> infix (rev p) (rev l).
  Proof. intros (a & b & ->). exists (rev b), (rev a). rewrite !rev_app_distr, <- app_assoc. reflexivity. Qed.
  Lemma infix_length p l : infix p l -> (length p <= length l)%nat.
  Proof. intros (a & b & ->). rewrite !app_length. lia. Qed.
  Lemma infix_Forall (P : token -> Prop) p l : infix p l -> Forall P l -> Forall P p.
  Proof. intros (a & b & ->) F. apply Forall_app in F. destruct F as [_ F]. apply Forall_app in F. apply F. Qed.
  (* in the order of reading, which is from the right *)
  Definition quiet_r (rt : list token) : Prop := forall a t u b, rt = a ++ t :: u :: b -> tt t = LeftBrack -> tt u <> RightBrack /\ tt u <> LeftParen.
  Lemma quiet_infix p l : infix p l -> quiet_r l -> quiet_r p.
  Proof. intros (c & d & ->) Q a t u b E. apply (Q (c ++ a) t u (b ++ d)). rewrite E, <- !app_assoc. reflexivity. Qed.
  Lemma split_infix at_ inc dec : forall toks lv p, In p (splitTokens at_ inc dec lv toks) -> infix p toks.
  Proof.
    assert (K : forall toks lv, exists p l, splitTokens at_ inc dec lv toks = p :: l /\ (exists b, toks = p ++ b) /\ (forall q, In q l -> infix q toks)).
    { induction toks as [|t toks IH]; intros lv; cbn [splitTokens]; [exists [], []; repeat split; [exists []; reflexivity|intros q []]|].
      match goal with |- context [splitTokens _ _ _ ?v _] => destruct (IH v) as (p & l & E & (b & Eb) & H); set (lv' := v) in * end.
      assert (H1 : forall q, infix q toks -> infix q (t :: toks)) by (intros q (x & y & ->); exists (t :: x), y; reflexivity).
      destruct (_ && _).
      - exists [], (splitTokens at_ inc dec lv' toks). split; [reflexivity|]. split; [exists (t :: toks); reflexivity|]. intros q Hq. apply H1. rewrite E in Hq. destruct Hq as [<-|Hq]; [exists [], b; exact Eb|auto].
      - rewrite E. exists (t :: p), l. split; [reflexivity|]. split; [exists b; rewrite Eb; reflexivity|]. intros q Hq. auto. }
    intros toks lv p Hp. destruct (K toks lv) as (p0 & l & E & (b & Eb) & H). rewrite E in Hp. destruct Hp as [<-|Hp]; [exists [], b; exact Eb|auto].
  Qed.
  Lemma mapM_quiet {A B} (f : A -> outcome B) l : (forall x, In x l -> f x <> Panic) -> mapM f l <> Panic.
  Proof.
    induction l as [|x l IH]; intros H; cbn [mapM]; [discriminate|]. pose proof (H x (or_introl eq_refl)). destruct (f x); cbn [obind]; try discriminate; [|congruence].
    destruct (mapM f l) eqn:E; cbn [obind]; try discriminate. exfalso. apply IH; [intros y Hy; apply H; right; exact Hy|reflexivity].
  Qed.
  Definition no_end (l : list token) : Prop := Forall (fun t => tt t <> Endl) l.
  (* the parser of shorter lists, from an empty stack *)
  Definition stmt_safe (stmt : list token -> stack -> outcome (option item)) (rt : list token) : Prop := forall p, infix p rt -> stmt p [] <> Panic.
  Section Sub.
    Context (stmt : list token -> stack -> outcome (option item)) (inner : list token) (SAFE : stmt_safe stmt inner).
    Lemma statement_safe p : infix p (rev inner) -> statement stmt p <> Panic.
    Proof.
      intros H. unfold statement. pose proof (SAFE (rev p)) as K. apply infix_rev in H. rewrite rev_involutive in H. specialize (K H).
      destruct (stmt (rev p) []); cbn [obind]; congruence.
    Qed.
    Lemma pieces_safe at_ inc dec toks : infix toks (rev inner) -> mapM (statement stmt) (splitTokens at_ inc dec 0 toks) <> Panic.
    Proof. intros H. apply mapM_quiet. intros p Hp. apply statement_safe. eapply infix_trans; [eapply split_infix; exact Hp|exact H]. Qed.
    Lemma list_safe : parseList stmt (rev inner) = Err \/ exists es, parseList stmt (rev inner) = Ok (mkItem (EList es) noun).
    Proof.
      unfold parseList. assert (N : mapM (statement stmt) (removelast (splitTokens Semicolon [LeftParen] [RightParen] 0 (rev inner))) <> Panic).
      { apply mapM_quiet. intros p Hp. apply statement_safe. eapply split_infix.
        assert (R : forall (A : Type) (x : A) l, In x (removelast l) -> In x l). { clear. intros A x l. induction l as [|y l IH]; [intros []|]. cbn [removelast]. destruct l; [intros []|]. intros [->|H]; [left; reflexivity|right; auto]. }
        apply R. exact Hp. }
      destruct (mapM _ _); cbn [obind]; [right; eauto|left; reflexivity|congruence].
    Qed.
    Lemma brackets_item : parseBrackets G stmt (rev inner) = Err \/ exists i, parseBrackets G stmt (rev inner) = Ok i /\ bad i.
    Proof.
      unfold parseBrackets. pose proof (pieces_safe Semicolon [LeftParen; LeftBrack] [RightParen; RightBrack] (rev inner) (infix_refl _)) as N.
      destruct (mapM _ _); cbn [obind]; [right; eexists; split; [reflexivity|split; [reflexivity|eexists; reflexivity]]|left; reflexivity|congruence].
    Qed.
    Lemma guard_safe toks : infix toks (rev inner) -> guardExpr stmt toks <> Panic.
    Proof.
      intros H. unfold guardExpr. destruct (_ <? _)%Z; [discriminate|]. pose proof (pieces_safe Colon [LeftBrace] [RightBrace] toks H) as N.
      destruct (mapM _ _) as [es| |]; cbn [obind]; [|discriminate|congruence]. destruct es as [|? [|? [|? [|]]]]; discriminate.
    Qed.
    Lemma guards_safe l : (forall p, In p l -> infix p (rev inner)) -> guards stmt l <> Panic.
    Proof.
      induction l as [|x l IH]; intros H; cbn [guards]; [discriminate|]. pose proof (guard_safe x (H x (or_introl eq_refl))) as N.
      destruct (guardExpr stmt x) as [gt| |]; cbn [obind]; [|discriminate|congruence].
      assert (K : guards stmt l <> Panic) by (apply IH; intros p Hp; apply H; right; exact Hp).
      destruct (snd gt); destruct l; try discriminate; destruct (guards stmt _); cbn [obind]; congruence.
    Qed.
    Lemma lambda_safe : parseLambda stmt (rev inner) = Err \/ exists i, parseLambda stmt (rev inner) = Ok i /\ good i /\ noidx i.
    Proof.
      unfold parseLambda. pose proof (guards_safe (splitTokens Diamond [LeftBrace] [RightBrace] 0 (rev inner)) ltac:(intros p Hp; eapply split_infix; exact Hp)) as N.
      destruct (guards _ _); cbn [obind]; [right; eexists; split; [reflexivity|split; [intros X; discriminate X|reflexivity]]|left; reflexivity|congruence].
    Qed.
  End Sub.
  Definition topbad (st : stack) : Prop := match st with [] => False | i :: _ => bad i end.
  (* the statement does not end with brackets at its left end *)
  Definition closed (rt : list token) (st : stack) : Prop := match rev rt with [] => ~ topbad st | t :: _ => tt t <> LeftBrack end.
  Lemma closed_rest w t rest st st' : closed (w ++ t :: rest) st -> (rest = [] -> tt t <> LeftBrack -> ~ topbad st') -> closed rest st'.
  Proof.
    unfold closed. rewrite rev_app_distr. cbn [rev]. rewrite <- app_assoc. intros C H. destruct (rev rest) eqn:E.
    - apply H; [destruct rest; [reflexivity|cbn in E; apply app_eq_nil in E; destruct E; discriminate]|]. exact C.
    - exact C.
  Qed.
  Lemma fine_not_bad st : fine st -> ~ topbad st.
  Proof. intros [_ T]. destruct st as [|i st]; [intros []|]. intros [_ [s E]]. cbn in T. unfold noidx in T. rewrite E in T. discriminate T. Qed.
  Lemma finish_safe st : whole st -> finish st <> Panic /\ (st <> [] -> ~ topbad st -> forall r, finish st = Ok r -> exists i, r = Some i /\ good i /\ noidx i).
  Proof.
    intros W. destruct st as [|i st]; [split; [discriminate|congruence]|]. unfold finish.
    destruct W as [W|[[F T]|(b & st' & E & B & Gs)]]; [discriminate W| |].
    - inversion F as [|? ? Gi Gs]; subst. destruct (reduce_safe true i st Gi T (or_introl Gs)) as [->|(s & -> & Fs & L)]; cbn [obind]; [split; [discriminate|intros _ _ r X; discriminate X]|].
      destruct (link_safe s Fs (L eq_refl)) as (j & Ej & Gj & Nj). rewrite Ej. split; [discriminate|]. intros _ _ r X. injection X as <-. eauto.
    - injection E as <- <-. split; [|intros _ N; exfalso; apply N; exact B]. destruct B as [_ [s E]]. destruct i as [e c]. cbn in E. subst e.
      change (reduce true (mkItem (EIdx s) c :: st)) with (Ok (mkItem (EIdx s) c :: st)). cbn [obind].
      change (linkFuncAssign (mkItem (EIdx s) c :: st)) with (mkItem (EIdx s) c :: st). cbn [rev]. destruct (rev st); discriminate.
  Qed.
  Lemma collect_rest e rest : forall rt, collectArray G rt = Ok (e, rest) -> exists w, rt = w ++ rest /\ Forall (fun t => notBracket (tt t) = true) w.
  Proof. intros rt H. eapply collectArray_consumes. exact H. Qed.
  Lemma collect_panic rt : collectArray G rt <> Panic.
  Proof.
    unfold collectArray. assert (K : forall rt ar, collect G rt ar <> Panic).
    { clear. induction rt as [|t rt IH]; intros ar; cbn [collect]; [discriminate|]. destruct (tt t); try discriminate; auto.
      - destruct (g_number G _); [auto|discriminate].
      - destruct (_ && _); [discriminate|auto].
      - destruct (isVarname _) as [[] []]; try discriminate. auto. }
    specialize (K rt []). destruct (collect G rt []); cbn [obind]; congruence.
  Qed.
  (* an array takes its first token *)
  Lemma collect_first t rt e rest : (tt t = Number \/ tt t = M_Scan.String \/ tt t = Chars \/ tt t = Identifier /\ isVarname (name_of (g_unicode G) (ts t)) = (true, false)) ->
    collectArray G (t :: rt) = Ok (e, rest) -> exists w, rt = w ++ rest /\ Forall (fun t => notBracket (tt t) = true) w.
  Proof.
    unfold collectArray. intros T H. destruct (collect G (t :: rt) []) as [r| |] eqn:E; try discriminate. cbn [obind] in H. injection H as <- <-.
    cbn [collect] in E. destruct T as [T|[T|[T|[T V]]]]; rewrite T in E.
    - destruct (g_number G (ts t)); [|discriminate]. eapply collect_consumes. exact E.
    - eapply collect_consumes. exact E.
    - cbn [negb andb] in E. eapply collect_consumes. exact E.
    - rewrite V in E. eapply collect_consumes. exact E.
  Qed.
  Definition head_ok (rt : list token) (st : stack) : Prop := topbad st -> match rt with u :: _ => tt u <> RightBrack | [] => True end.
  Definition answers (rt : list token) (st : stack) (o : outcome (option item)) : Prop :=
    o <> Panic /\ (closed rt st -> (rt <> [] \/ st <> []) -> forall r, o = Ok r -> exists i, r = Some i /\ good i /\ noidx i).
  Lemma statement_ok n : forall rt st, (length rt < n)%nat -> no_end rt -> quiet_r rt -> whole st -> head_ok rt st -> answers rt st (parseStatement G n rt st).
  Proof.
    induction n as [|n IH]; intros rt st LT NE Q W HO; [lia|]. cbn [parseStatement]. destruct rt as [|t rt].
    { destruct (finish_safe st W) as [A B]. split; [exact A|]. intros C N r E. apply (B ltac:(destruct N; congruence) C r E). }
    cbn [length] in LT. inversion NE as [|? ? NE1 NE2]; subst.
    assert (QT : forall w rest, rt = w ++ rest -> quiet_r rest). { intros w rest ->. eapply quiet_infix; [|exact Q]. exists (t :: w), []. rewrite app_nil_r. reflexivity. }
    (* after a good item *)
    assert (PUSH : forall i w rest, good i -> noidx i -> rt = w ++ rest -> answers (t :: rt) st (let* st' := reduce false (i :: st) in parseStatement G n rest st')).
    { intros i w rest Gi Ni Er. destruct (reduce_safe false i st Gi Ni (whole_ready _ W)) as [->|(s & -> & F & _)]; cbn [obind]; [split; [discriminate|intros _ _ r X; discriminate X]|].
      assert (NB : ~ topbad s) by (apply fine_not_bad, F).
      destruct (IH rest s) as [A B].
      - rewrite Er, app_length in LT. lia.
      - rewrite Er in NE2. apply Forall_app in NE2. apply NE2.
      - eapply QT. exact Er.
      - right. left. exact F.
      - intros X. contradiction.
      - split; [exact A|]. intros C _ r E. apply (B) with (r := r); [|right; intros ->; destruct F as [_ []]|exact E].
        destruct rest as [|u rest]; [exact NB|]. rewrite Er in C. unfold closed in *. rewrite app_comm_cons, rev_app_distr in C. cbn [rev] in *. destruct (rev rest ++ [u]) eqn:X; [destruct (rev rest); discriminate X|exact C]. }
    assert (ONE : forall i, good i -> noidx i -> answers (t :: rt) st (let* st' := reduce false (i :: st) in parseStatement G n rt st')) by (intros i Gi Ni; apply (PUSH i []); [exact Gi|exact Ni|reflexivity]).
    assert (NOPE : answers (t :: rt) st Err) by (split; [discriminate|intros _ _ r X; discriminate X]).
    assert (ARR : (tt t = Number \/ tt t = M_Scan.String \/ tt t = Chars \/ tt t = Identifier /\ isVarname (name_of (g_unicode G) (ts t)) = (true, false)) ->
      answers (t :: rt) st (let* er := collectArray G (t :: rt) in let* st' := reduce false (mkItem (fst er) noun :: st) in parseStatement G n (snd er) st')).
    { intros T. destruct (collectArray G (t :: rt)) as [[e rest]| |] eqn:E; [|exact NOPE|exfalso; exact (collect_panic _ E)]. cbn [obind fst snd].
      destruct (collect_first _ _ _ _ T E) as (w & Ew & _). apply (PUSH _ w); [exact Logic.I| |exact Ew].
      unfold collectArray in E. destruct (collect G (t :: rt) []) as [[ar rs]| |] eqn:C; try discriminate E. cbn [obind fst snd] in E. injection E as <- _.
      assert (K : forall rt ar r, Forall (fun e => is_idx e = None) ar -> collect G rt ar = Ok r -> Forall (fun e => is_idx e = None) (fst r)).
      { clear. induction rt as [|t rt IH]; intros ar r F H; cbn [collect] in H; [injection H as <-; exact F|].
        assert (STOP : Ok (ar, t :: rt) = Ok r -> Forall (fun e => is_idx e = None) (fst r)) by (intros X; injection X as <-; exact F).
        destruct (tt t); try (apply STOP; exact H).
        - destruct (g_number G _); [|discriminate]. eapply IH; [|exact H]. constructor; [reflexivity|exact F].
        - eapply IH; [|exact H]. constructor; [reflexivity|exact F].
        - destruct (_ && _); [discriminate|]. eapply IH; [|exact H]. apply Forall_app. split; [|exact F]. apply Forall_forall. intros x X. apply in_map_iff in X. destruct X as (y & <- & _). reflexivity.
        - destruct (isVarname _) as [[] []]; try (apply STOP; exact H). eapply IH; [|exact H]. constructor; [reflexivity|exact F]. }
      pose proof (K _ _ _ (Forall_nil _) C) as FA. cbn [fst] in FA. unfold noidx. cbn [ie]. destruct ar as [|x [|]]; try reflexivity. inversion FA; assumption. }
    assert (SUB : forall right, tt t = right -> (right = RightParen \/ right = RightBrack \/ right = RightBrace) ->
       answers (t :: rt) st (match pullMatching (left_of right) right 1 rt with None => Err | Some (inner, rest) =>
         let* i := subStatement G (parseStatement G n) right inner in let* st' := reduce false (i :: st) in parseStatement G n rest st' end)).
    { intros right T R. destruct (pullMatching (left_of right) right 1 rt) as [[inner rest]|] eqn:P; [|exact NOPE].
      apply pullMatching_spec in P; [|destruct R as [->|[->| ->]]; discriminate|lia]. destruct P as (u & P & U & _).
      assert (LI : (length inner < n)%nat) by (rewrite P, app_length in LT; cbn [length] in LT; lia).
      assert (II : infix inner (t :: rt)) by (exists [t], (u :: rest); rewrite P; reflexivity).
      assert (NI : no_end inner) by (eapply infix_Forall; [exact II|exact NE]).
      assert (SAFE : stmt_safe (parseStatement G n) inner).
      { intros p Hp. apply IH; [pose proof (infix_length _ _ Hp); lia|eapply infix_Forall; eassumption|eapply quiet_infix; [eapply infix_trans; eassumption|exact Q]|left; reflexivity|intros []]. }
      assert (PUSH2 : forall i, good i -> noidx i -> answers (t :: rt) st (let* st' := reduce false (i :: st) in parseStatement G n rest st')).
      { intros i Gi Ni. apply (PUSH i (inner ++ [u])); [exact Gi|exact Ni|rewrite P, <- app_assoc; reflexivity]. }
      destruct R as [-> |[-> | ->]].
      - (* parentheses *) unfold subStatement. destruct inner as [|x inner]; [exact NOPE|]. destruct (teqb (tt x) Semicolon).
        + destruct (list_safe (parseStatement G n) (x :: inner) SAFE) as [->|(es & ->)]; cbn [obind]; [exact NOPE|]. apply PUSH2; [exact Logic.I|reflexivity].
        + destruct (IH (x :: inner) []) as [A B]; [exact LI|exact NI|eapply quiet_infix; [exact II|exact Q]|left; reflexivity|intros []|].
          assert (C : closed (x :: inner) []).
          { unfold closed. destruct (rev (x :: inner)) as [|y l] eqn:RV; [intros []|]. intros Y.
            assert (EI : x :: inner = rev l ++ [y]) by (rewrite <- (rev_involutive (x :: inner)), RV; reflexivity).
            destruct (Q (t :: rev l) y u rest) as [_ X]; [|exact Y|exact (X U)]. cbn [app]. rewrite P, EI, <- app_assoc. reflexivity. }
          destruct (parseStatement G n (x :: inner) []) as [r| |] eqn:E; cbn [obind]; [|exact NOPE|congruence].
          destruct (B C ltac:(left; discriminate) r eq_refl) as (i & -> & Gi & Ni). cbn [obind]. apply PUSH2; assumption.
      - (* brackets *)
        assert (NB : ~ topbad st) by (intros X; apply (HO X); exact T).
        assert (PB : forall i, bad i -> answers (t :: rt) st (let* st' := reduce false (i :: st) in parseStatement G n rest st')).
        { intros i Bi. rewrite (reduce_bad i st Bi). cbn [obind].
          assert (Gs : Forall good st). { destruct W as [->|[[F _]|(b & st' & -> & Bb & _)]]; [constructor|exact F|]. exfalso. apply NB. exact Bb. }
          assert (HQ : head_ok rest (i :: st)).
          { intros _. destruct rest as [|v rest]; [exact Logic.I|]. destruct (Q (t :: inner) u v rest) as [X _]; [cbn [app]; rewrite P; reflexivity|exact U|exact X]. }
          destruct (IH rest (i :: st)) as [A B].
          - rewrite P, app_length in LT. cbn [length] in LT. lia.
          - rewrite P in NE2. apply Forall_app in NE2. destruct NE2 as [_ X]. inversion X; assumption.
          - apply (QT (inner ++ [u])). rewrite P, <- app_assoc. reflexivity.
          - right. right. exists i, st. auto.
          - exact HQ.
          - split; [exact A|]. intros C _ r E. apply B with (r := r); [|right; discriminate|exact E].
            eapply (closed_rest (t :: inner) u); [cbn [app]; rewrite <- P; exact C|]. intros _ X. exfalso. apply X. exact U. }
        unfold subStatement. destruct inner as [|x inner]; [cbn [obind]; apply PB; split; [reflexivity|eexists; reflexivity]|].
        destruct (brackets_item (parseStatement G n) (x :: inner) SAFE) as [->|(i & -> & Bi)]; cbn [obind]; [exact NOPE|]. apply PB, Bi.
      - (* braces *) unfold subStatement. destruct inner as [|x inner]; [cbn [obind]; apply PUSH2; [intros X; discriminate X|reflexivity]|].
        destruct (lambda_safe (parseStatement G n) (x :: inner) SAFE) as [->|(i & -> & Gi & Ni)]; cbn [obind]; [exact NOPE|]. apply PUSH2; assumption. }
    assert (FN : forall f, answers (t :: rt) st (let* st' := reduce false (mkItem (EFn f) verb :: st) in parseStatement G n rt st')) by (intros f; apply ONE; [intros X; discriminate X|reflexivity]).
    destruct (tt t) eqn:T; try exact NOPE.
    - congruence.
    - destruct (g_primitive G _); [apply FN|]. destruct (g_operator G _) as [dy|]; [|exact NOPE].
      set (i := mkItem (EFn (FDer (utf8 (ts t)) None None)) (if dy then conjunction else adverb)).
      assert (Gi : good i /\ noidx i) by (split; [apply good_der; destruct dy; discriminate|reflexivity]).
      apply ONE; destruct (String.eqb _ _); try apply Gi; unfold specialJot; destruct st as [|[e c] st0]; try apply Gi; destruct e as [| | |f| | |]; try apply Gi; destruct f; try apply Gi; destruct (String.eqb _ _); try apply Gi; first [reflexivity|intros X; discriminate X].
    - apply ARR. auto.
    - apply ARR. auto.
    - apply ARR. auto.
    - destruct (isVarname _) as [[] []] eqn:V; try exact NOPE; [apply FN|]. apply ARR. auto.
    - apply (SUB _ eq_refl). auto.
    - apply (SUB _ eq_refl). auto.
    - apply (SUB _ eq_refl). auto.
    - apply FN.
  Qed.
  (* ---------------- programs ---------------- *)
  Lemma quiet_rev toks : (forall a t u b, toks = a ++ t :: u :: b -> tt u = LeftBrack -> tt t <> RightBrack /\ tt t <> LeftParen) -> quiet_r (rev toks).
  Proof.
    intros H a t u b E T. apply (H (rev b) u t (rev a)); [|exact T]. rewrite <- (rev_involutive toks), E, rev_app_distr. cbn [rev]. rewrite <- !app_assoc. reflexivity.
  Qed.
  Lemma parse_statement_safe toks : no_end toks -> quiet_r (rev toks) -> parse_statement G toks <> Panic.
  Proof.
    intros NE Q. unfold parse_statement. apply statement_ok; [rewrite rev_length; lia|apply Forall_rev, NE|exact Q|left; reflexivity|intros []].
  Qed.
  Lemma next_panic : forall toks b, nextStatement b toks <> Panic.
  Proof.
    induction toks as [|t toks IH]; intros b; cbn [nextStatement]; [discriminate|]. match goal with |- context [if ?c <? 0 then _ else _] => set (b' := c) end. destruct (b' <? 0)%Z; [discriminate|].
    destruct (_ && _); [discriminate|]. specialize (IH b'). destruct (nextStatement b' toks); cbn [obind]; congruence.
  Qed.
  Lemma program_safe n : forall toks, (length toks < n)%nat -> no_end toks -> quiet_r (rev toks) -> parseProgram G n toks <> Panic.
  Proof.
    induction n as [|n IH]; intros toks L NE Q; [lia|]. cbn [parseProgram]. destruct toks as [|t toks]; [discriminate|].
    destruct (nextStatement 0 (t :: toks)) as [[a rest]| |] eqn:N; cbn [obind fst snd]; [|discriminate|exfalso; exact (next_panic _ _ N)].
    destruct (nextStatement_split _ _ _ _ N) as [[E ->]|(u & U & E)].
    - rewrite E in *. pose proof (parse_statement_safe a NE Q) as S. destruct (parse_statement G a); cbn [obind]; [|discriminate|congruence].
      destruct n; [rewrite <- E in L; cbn in L; lia|]. cbn [parseProgram]. discriminate.
    - assert (IA : infix a (t :: toks)) by (exists [], (u :: rest); exact E). assert (IR : infix rest (t :: toks)) by (exists (a ++ [u]), []; rewrite E, app_nil_r, <- app_assoc; reflexivity).
      pose proof (parse_statement_safe a ltac:(eapply infix_Forall; eassumption) ltac:(eapply quiet_infix; [apply infix_rev; exact IA|exact Q])) as S.
      destruct (parse_statement G a); cbn [obind]; [|discriminate|congruence].
      assert (S2 : parseProgram G n rest <> Panic).
      { apply IH; [rewrite E, app_length in L; cbn [length] in L; lia|eapply infix_Forall; eassumption|eapply quiet_infix; [apply infix_rev; exact IR|exact Q]]. }
      destruct (parseProgram G n rest); cbn [obind]; congruence.
  Qed.
  Lemma parse_safe toks : no_end toks -> quiet_r (rev toks) -> parse G toks <> Panic.
  Proof.
    intros NE Q. unfold parse. pose proof (program_safe (S (length toks)) toks ltac:(lia) NE Q) as S. destruct (parseProgram G _ toks) as [[|]| |]; cbn [obind]; congruence.
  Qed.
End Safe.
