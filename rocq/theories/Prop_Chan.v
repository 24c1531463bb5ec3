(* Prop_Chan.v -- the properties of channels: C70-C72, C74, C91-C93. *)
From Coq Require Import List Bool Arith Lia.
From Verif Require Import Base M_Chan S_Chan P_Chan P_Chan2 P_Chan3 P_Chan4 P_Chan5 P_Chan6.
Import ListNotations.
Open Scope list_scope.
Open Scope nat_scope.

Section Props.
  Context {V : Type} (errV emptyV oneV : V) (isEmpty : V -> bool) (ravel : V -> list V) (pack : list nat -> list V -> V).
  Local Notation step := (step errV emptyV oneV isEmpty ravel pack).
  Local Notation run := (run errV emptyV oneV isEmpty ravel pack).
  Local Notation crashes := (crashes errV emptyV oneV isEmpty ravel pack).
  Local Notation outputs := (outputs errV isEmpty ravel pack).
  Local Notation through := (through errV isEmpty).
  Local Notation results := (results emptyV oneV pack).
  Local Notation finished := (finished step).
  Local Notation system := (system oneV).

  (* ---------- C91: every schedule gives the same results ---------- *)
  (* p is a channel expression, ops are operations on its channel, the schedule is any
     interleaving and any choice of ready select cases. *)
  Theorem C91_results : forall (p : plan V) ops t s, tidy 1 ops -> fits p -> (closes ops = 0 \/ plain p) -> run (system p ops) t s ->
    (finished s -> returned s (results ops (outputs p))) /\
    (exists log rest, got_so_far s log /\ log ++ rest = results ops (outputs p)).
  Proof.
    intros p ops t s T FT C RN. pose proof (inv_run _ _ _ _ _ _ _ _ _ _ _ _ RN (inv_init errV emptyV oneV isEmpty ravel pack p ops T FT C)) as IV. split.
    - intros FN. eapply inv_done; [exact IV|]. intros (lab & s' & ST). exact (FN lab s' ST).
    - destruct IV as (_ & st & ops' & log & vs & A & _ & E & _). exists log, (expect emptyV oneV pack st ops' vs). split; [do 2 eexists; exact A|exact E].
  Qed.
  (* no goroutine panics *)
  Theorem C91_no_crash : forall (p : plan V) ops t s, tidy 1 ops -> fits p -> (closes ops = 0 \/ plain p) -> run (system p ops) t s -> ~ crashes s.
  Proof.
    intros p ops t s T FT C RN. pose proof (inv_run _ _ _ _ _ _ _ _ _ _ _ _ RN (inv_init errV emptyV oneV isEmpty ravel pack p ops T FT C)) as (F & _). eapply fine_safe. exact F.
  Qed.
  (* no schedule goes on for ever *)
  Theorem C91_terminates : forall (p : plan V) ops, tidy 1 ops -> fits p -> (closes ops = 0 \/ plain p) ->
    forall r : nat -> sys V, r 0 = system p ops -> ~ forall n, exists lab, step (r n) lab (r (S n)).
  Proof.
    intros p ops T FT C r R0 ST.
    assert (A : Acc (fun s' s => exists lab, step s lab s') (r 0)).
    { rewrite R0. eapply (steps_end _ _ _ _ _ _ (sys_reader oneV p ops) (sys_K p ops)); [apply sys_reader_below; auto|apply system_fine; assumption]. }
    assert (G : forall x, Acc (fun s' s => exists lab, step s lab s') x -> forall n, x = r n -> False).
    { intros x AX. induction AX as [x _ IH]. intros n ->. eapply (IH (r (S n))); [apply ST|reflexivity]. }
    exact (G _ A 0 eq_refl).
  Qed.

  (* ---------- C70: sending a list ---------- *)
  Lemma takes : forall k vs, k <= length vs -> forall ops, results (repeat (Take 1) k ++ ops) vs = map Ok (firstn k vs) ++ results ops (skipn k vs).
  Proof. induction k as [|k IH]; intros vs L ops; [reflexivity|]. destruct vs as [|v vs]; [cbn in L; lia|]. cbn [repeat app S_Chan.results firstn map skipn]. rewrite IH by (cbn in L; lia). reflexivity. Qed.
  Lemma tidy_takes : forall k (ops : list (op V)), tidy 1 ops -> tidy 1 (repeat (Take 1) k ++ ops).
  Proof.
    intros k ops [U L]. split; [apply Forall_app; split; [|exact U]|].
    - apply Forall_forall. intros o I. apply repeat_spec in I. subst o. reflexivity.
    - unfold closes in *. rewrite filter_app, app_length. replace (filter closing (repeat (Take 1) k)) with (@nil (op V)); [exact L|]. induction k; [reflexivity|exact IHk].
  Qed.
  Lemma tidy_one : forall o : op V, use_of 1 o -> tidy 1 [o].
  Proof. intros o U. split; [auto|]. unfold closes. cbn. destruct (closing o); cbn; lia. Qed.
  Lemma all_end_polite : forall (p : plan V) ops t s, tidy 1 ops -> fits p -> plain p -> one_apply p -> exhausts ops -> run (system p ops) t s -> finished s -> all_ended s.
  Proof.
    intros p ops t s T FT PL OA EX RN FN.
    eapply (ends_all errV emptyV oneV isEmpty ravel pack p ops (fun c => 1 < c)); [exact T|exact FT|auto|apply one_totals, OA|exact EX| |intros r R; right; lia|exact RN|].
    - intros c P LT A. destruct c as [|[|c]]; try lia. unfold at_, S_Chan.system in A. cbn [procs nth_error] in A. eapply (one_cover p 1 c); [exact OA|exact PL|exact A].
    - intros (lab & s' & ST). exact (FN lab s' ST).
  Qed.
  (* all values arrive in order, exactly once, then the channel is closed and the sender returns *)
  Theorem C70_all : forall vs t s, run (system (Values vs) [Show 1]) t s -> finished s -> returned s (map Ok vs) /\ all_ended s.
  Proof.
    intros vs t s RN FN. assert (T : tidy 1 [@Show V 1]) by (apply tidy_one; reflexivity). split.
    - destruct (C91_results (Values vs) [Show 1] t s T I (or_introl eq_refl) RN) as [R _]. specialize (R FN). cbn in R. rewrite app_nil_r in R. exact R.
    - apply (all_end_polite (Values vs) [Show 1] t s); auto; try exact I. exists (Show 1). cbn. auto.
  Qed.
  (* closed after k values: these k values have arrived, the sender returns *)
  Theorem C70_closed : forall vs k t s, k <= length vs -> run (system (Values vs) (repeat (Take 1) k ++ [CloseC 1])) t s -> finished s ->
    returned s (map Ok (firstn k vs) ++ [Ok oneV]) /\ all_ended s.
  Proof.
    intros vs k t s L RN FN. assert (T : tidy 1 (repeat (Take 1) k ++ [@CloseC V 1])) by (apply tidy_takes, tidy_one; reflexivity). split.
    - destruct (C91_results (Values vs) _ t s T I (or_intror I) RN) as [R _]. specialize (R FN). cbn in R. rewrite takes in R by exact L. exact R.
    - eapply (all_end_polite (Values vs)); [exact T|exact I|exact I|exact I| |exact RN|exact FN]. exists (CloseC 1). split; [apply in_or_app; cbn; auto|exact I].
  Qed.
  (* values that are taken after the last one are errors *)
  Theorem C70_beyond : forall vs k t s, run (system (Values vs) (repeat (Take 1) (length vs + k))) t s -> finished s -> returned s (map Ok vs ++ repeat Err k).
  Proof.
    intros vs k t s RN FN. assert (T : tidy 1 (repeat (@Take V 1) (length vs + k))) by (rewrite <- (app_nil_r (repeat _ _)); apply tidy_takes; split; [constructor|cbn; lia]).
    destruct (C91_results (Values vs) _ t s T I (or_intror I) RN) as [R _]. specialize (R FN). cbn in R.
    rewrite repeat_app in R. rewrite takes in R by lia. rewrite firstn_all, skipn_all in R. replace (repeat Err k) with (results (repeat (Take 1) k) []); [exact R|].
    clear. induction k as [|k IH]; [reflexivity|]. cbn. rewrite IH. reflexivity.
  Qed.

  (* ---------- C71: applying a function ---------- *)
  Theorem C71_map : forall (f : func V) (g : V -> V) lv (p : plan V) t s, (forall v, f lv v = Ok (g v)) -> (forall l v, f l v <> Err /\ f l v <> Panic) -> fits p ->
    run (system (Map f lv false p) [Show 1]) t s -> finished s -> returned s (map Ok (map g (outputs p))).
  Proof.
    intros f g lv p t s FG FT FP RN FN. assert (T : tidy 1 [@Show V 1]) by (apply tidy_one; reflexivity).
    assert (FM : fits (Map f lv false p)) by (split; [intros l v; apply FT|right; split; [intros l v; apply FT|exact FP]]).
    destruct (C91_results _ _ t s T FM (or_introl eq_refl) RN) as [R _]. specialize (R FN). cbn in R. rewrite app_nil_r in R.
    replace (through f false (Const lv) (outputs p)) with (map g (outputs p)) in R; [exact R|]. clear - FG. induction (outputs p) as [|v vs IH]; [reflexivity|]. cbn. rewrite FG. cbn. rewrite IH. reflexivity.
  Qed.
  (* the first error ends the stream; with a filter empty results are skipped *)
  Theorem C71_through : forall (f : func V) lv filt (p : plan V) t s, no_panic f -> plain p ->
    run (system (Map f lv filt p) [Show 1]) t s -> finished s -> returned s (map Ok (through f filt (Const lv) (outputs p))).
  Proof.
    intros f lv filt p t s NP PL RN FN. assert (T : tidy 1 [@Show V 1]) by (apply tidy_one; reflexivity).
    destruct (C91_results (Map f lv filt p) _ t s T (conj NP (or_introl PL)) (or_introl eq_refl) RN) as [R _]. specialize (R FN). cbn in R. rewrite app_nil_r in R. exact R.
  Qed.
  (* closing the result closes the source *)
  Theorem C71_closed : forall (f : func V) lv filt (p : plan V) k t s, no_panic f -> plain p -> polite p -> k <= length (through f filt (Const lv) (outputs p)) ->
    run (system (Map f lv filt p) (repeat (Take 1) k ++ [CloseC 1])) t s -> finished s ->
    returned s (map Ok (firstn k (through f filt (Const lv) (outputs p))) ++ [Ok oneV]) /\ all_ended s.
  Proof.
    intros f lv filt p k t s NP PL PO L RN FN. assert (T : tidy 1 (repeat (Take 1) k ++ [@CloseC V 1])) by (apply tidy_takes, tidy_one; reflexivity).
    assert (FM : fits (Map f lv filt p)) by (split; auto). split.
    - destruct (C91_results _ _ t s T FM (or_intror (conj NP PL)) RN) as [R _]. specialize (R FN). cbn in R. rewrite takes in R by exact L. exact R.
    - eapply (all_end_polite (Map f lv filt p)); [exact T|exact FM|exact (conj NP PL)|exact PO| |exact RN|exact FN]. exists (CloseC 1). split; [apply in_or_app; cbn; auto|exact I].
  Qed.

  (* ---------- C92: combining two channels ---------- *)
  (* f is applied to pairs; when the left channel has ended f is called without a left argument *)
  Theorem C92_zip : forall (f : func V) (pl p : plan V) t s, no_panic f -> plain pl -> plain p ->
    run (system (Zip f false pl p) [Show 1]) t s -> finished s -> returned s (map Ok (through f false (Stream (outputs pl)) (outputs p))).
  Proof.
    intros f pl p t s NP PLL PL RN FN. assert (T : tidy 1 [@Show V 1]) by (apply tidy_one; reflexivity).
    assert (FM : fits (Zip f false pl p)) by (repeat split; auto).
    destruct (C91_results _ _ t s T FM (or_introl eq_refl) RN) as [R _]. specialize (R FN). cbn in R. rewrite app_nil_r in R. exact R.
  Qed.
  Lemma through_pairs : forall (f : func V) (g : V -> V -> V), (forall a b, f (Some a) b = Ok (g a b)) -> forall vs ls, length vs <= length ls ->
    through f false (Stream ls) vs = map (fun ab => g (fst ab) (snd ab)) (combine ls vs).
  Proof.
    intros f g FG. induction vs as [|v vs IH]; intros ls L; [destruct ls; reflexivity|]. destruct ls as [|a ls]; [cbn in L; lia|]. cbn. rewrite FG. cbn. rewrite IH by (cbn in L; lia). reflexivity.
  Qed.
  Theorem C92_pairs : forall (f : func V) (g : V -> V -> V) (pl p : plan V) t s, (forall a b, f (Some a) b = Ok (g a b)) -> no_panic f -> plain pl -> plain p ->
    length (outputs p) <= length (outputs pl) -> run (system (Zip f false pl p) [Show 1]) t s -> finished s ->
    returned s (map Ok (map (fun ab => g (fst ab) (snd ab)) (combine (outputs pl) (outputs p)))).
  Proof. intros f g pl p t s FG NP PLL PL L RN FN. rewrite <- (through_pairs f g FG) by exact L. eapply C92_zip; eassumption. Qed.
  Theorem C92_ends : forall (f : func V) filt (pl p : plan V) ops t s, no_panic f -> never_fails f -> plain pl -> plain p -> polite pl -> polite p -> tidy 1 ops -> exhausts ops ->
    run (system (Zip f filt pl p) ops) t s -> finished s -> all_ended s.
  Proof.
    intros f filt pl p ops t s NP NF PLL PL PO PO' T EX RN FN. eapply (all_end_polite (Zip f filt pl p)); [exact T| | | |exact EX|exact RN|exact FN].
    - repeat split; auto.
    - repeat split; auto.
    - cbn. auto.
  Qed.

  (* ---------- C93: reduce and scan over a channel ---------- *)
  (* f/C folds from the left *)
  Theorem C93_reduce : forall (f : func V) (p : plan V) t s, no_panic f -> plain p -> fits p -> run (system p [Reduce f 1]) t s -> finished s ->
    returned s [match outputs p with [] => Ok emptyV | v :: vs => fold_left (fun a x => let* a := a in f (Some a) x) vs (Ok v) end].
  Proof.
    intros f p t s NP PL FT RN FN. assert (T : tidy 1 [Reduce f 1]) by (apply tidy_one; split; auto).
    destruct (C91_results p _ t s T FT (or_intror PL) RN) as [R _]. exact (R FN).
  Qed.
  (* f\C is the vector of the reductions of the prefixes *)
  Theorem C93_scan : forall (f : func V) (p : plan V) t s, no_panic f -> plain p -> fits p -> run (system p [ScanC f 1]) t s -> finished s ->
    returned s [scan1 emptyV pack f (outputs p)].
  Proof.
    intros f p t s NP PL FT RN FN. assert (T : tidy 1 [ScanC f 1]) by (apply tidy_one; split; auto).
    destruct (C91_results p _ t s T FT (or_intror PL) RN) as [R _]. exact (R FN).
  Qed.
  (* and the sources end *)
  Theorem C93_ends : forall (f : func V) (p : plan V) t s, no_panic f -> plain p -> fits p -> one_apply p -> run (system p [Reduce f 1]) t s -> finished s -> all_ended s.
  Proof.
    intros f p t s NP PL FT OA RN FN. assert (T : tidy 1 [Reduce f 1]) by (apply tidy_one; split; auto).
    eapply all_end_polite; [exact T|exact FT|exact PL|exact OA| |exact RN|exact FN]. exists (Reduce f 1). cbn. auto.
  Qed.

  (* ---------- C72: closing ends the producers ---------- *)
  Theorem C72_closed_ends_partial : forall (p : plan V) ops t s, tidy 1 ops -> fits p -> plain p -> one_apply p -> exhausts ops -> run (system p ops) t s -> finished s -> all_ended s.
  Proof. exact all_end_polite. Qed.
  (* what is read to its end ends, also a reshape *)
  Theorem C72_drained_ends_partial : forall (p : plan V) ops t s, tidy 1 ops -> fits p -> drains p -> closes ops = 0 -> exhausts ops -> run (system p ops) t s -> finished s -> all_ended s.
  Proof.
    intros p ops t s T FT DR C0 EX RN FN.
    eapply (ends_all errV emptyV oneV isEmpty ravel pack p ops (fun c => exists P, at_ (system p ops) c P /\ polite_proc P)); [exact T|exact FT|auto|apply drains_totals, DR|exact EX| | |exact RN|].
    - intros c P (Q & A & PQ) A'. rewrite (at_fun _ _ _ _ A' A). exact PQ.
    - intros r R. destruct r as [|r]; [lia|]. destruct (nth_error (goroutines 1 p) r) as [P|] eqn:E.
      + destruct (drains_cover p 1 r P DR (or_introl FT) E) as [X|X]; [left; split; auto|right; exists P; split; [exact E|exact X]].
      + apply nth_error_None in E. rewrite goroutines_length in E. lia.
    - intros (lab & s' & ST). exact (FN lab s' ST).
  Qed.

  (* ---------- C74: reshaping a channel ---------- *)
  Theorem C74_chunks : forall sh (p : plan V) t s, 0 < chunk_size sh -> fits p -> run (system (Reshape sh p) [Show 1]) t s -> finished s ->
    returned s (map Ok (map (pack sh) (groups (chunk_size sh) (concat (map ravel (outputs p)))))).
  Proof.
    intros sh p t s SZ FT RN FN. assert (T : tidy 1 [@Show V 1]) by (apply tidy_one; reflexivity).
    destruct (C91_results (Reshape sh p) _ t s T (conj SZ FT) (or_introl eq_refl) RN) as [R _]. specialize (R FN). cbn in R. rewrite app_nil_r in R. exact R.
  Qed.
  (* the groups are the stream, in order, without an incomplete group at its end *)
  Theorem C74_groups : forall n (es : list V), 0 < n -> Forall (fun g => length g = n) (groups n es) /\ concat (groups n es) = firstn (length es / n * n) es /\ length es - length (concat (groups n es)) < n.
  Proof.
    intros n es LT.
    assert (G : forall k (es : list V), length es <= k -> Forall (fun g => length g = n) (groups n es) /\ concat (groups n es) = firstn (length es / n * n) es).
    { induction k as [|k IH]; intros l L.
      - destruct l; [|cbn in L; lia]. rewrite groups_short by (cbn; lia). split; [constructor|]. rewrite firstn_nil. reflexivity.
      - destruct (Nat.lt_ge_cases (length l) n) as [SH|SH].
        + rewrite groups_short by exact SH. rewrite Nat.div_small by exact SH. split; [constructor|reflexivity].
        + assert (E : l = firstn n l ++ skipn n l) by (symmetry; apply firstn_skipn). assert (LF : length (firstn n l) = n) by (rewrite firstn_length; lia).
          rewrite E at 1 2. rewrite groups_app by auto. destruct (IH (skipn n l)) as [A B]; [rewrite skipn_length; lia|]. split; [constructor; assumption|]. cbn [concat]. rewrite B.
          assert (Q : length l / n = S (length (skipn n l) / n)) by (rewrite skipn_length; replace (length l) with (length l - n + 1 * n) at 1 by lia; rewrite Nat.div_add by lia; lia).
          rewrite Q. cbn [Nat.mul].
          assert (Z : forall m, firstn (n + m) l = firstn n l ++ firstn m (skipn n l)) by (intros m; rewrite <- (firstn_skipn n l) at 1; rewrite firstn_app, LF, (firstn_all2 (firstn n l)) by (rewrite LF; lia); f_equal; f_equal; lia).
          rewrite Z. reflexivity. }
    destruct (G (length es) es (le_n _)) as [A B]. split; [exact A|]. split; [exact B|]. rewrite B, firstn_length. pose proof (Nat.div_mod (length es) n ltac:(lia)) as DM. pose proof (Nat.mod_upper_bound (length es) n ltac:(lia)). rewrite Nat.mul_comm in DM. rewrite Nat.min_l by lia. lia.
  Qed.
End Props.

(* ---------- an endless source ---------- *)
Section Endless.
  Context {V : Type} (errV emptyV oneV v : V) (isEmpty : V -> bool) (ravel : V -> list V) (pack : list nat -> list V -> V) (n : Z) (k : nat).
  Local Notation step := (step errV emptyV oneV isEmpty ravel pack).
  Local Notation run := (run errV emptyV oneV isEmpty ravel pack).
  Local Notation crashes := (crashes errV emptyV oneV isEmpty ravel pack).
  (* <[n] R; k values are taken, then the channel is closed *)
  Definition endless : sys V := mkSys [main_next oneV (repeat (Take 1) k ++ [CloseC 1]) []; source 1 v n] [].
  Inductive phase : sys V -> Prop :=
  | ph_take j : j <= k -> phase (mkSys [main_next oneV (repeat (Take 1) j ++ [CloseC 1]) (repeat (Ok v) (k - j)); PRepeat 1 v None] [])
  | ph_drain : phase (mkSys [PMain (MDrain 1 (Ok oneV)) [] (repeat (Ok v) k); PRepeat 1 v None] [Ctl 1])
  | ph_close : phase (mkSys [PMain (MDrain 1 (Ok oneV)) [] (repeat (Ok v) k); PClose 1] [Ctl 1])
  | ph_end : phase (mkSys [PMain (MDrain 1 (Ok oneV)) [] (repeat (Ok v) k); PEnd] [Data 1; Ctl 1])
  | ph_done : phase (mkSys [PMain MIdle [] (repeat (Ok v) k ++ [Ok oneV]); PEnd] [Data 1; Ctl 1]).
  Lemma at_two : forall (P Q : proc V) i X, nth_error [P; Q] i = Some X -> (i = 0 /\ X = P) \/ (i = 1 /\ X = Q).
  Proof. intros P Q [|[|i]] X E; cbn in E; [left|right|destruct i; discriminate]; injection E as <-; auto. Qed.
  Lemma phase_step : forall s lab s', phase s -> step s lab s' -> phase s'.
  Proof.
    intros s lab s' PH H. destruct PH as [j J| | | |].
    - inversion H as [ps cl a b p u kk g P Q bs bs' IJ AI AJ NP IP NQ IQ OP|ps cl b p g Q bs AJ NQ IQ CL|ps cl a p kk P AI NP OP]; subst.
      + apply at_two in AI. apply at_two in AJ. destruct AI as [[-> ->]|[-> ->]], AJ as [[-> ->]|[-> ->]]; try lia.
        * destruct j; cbn in NP; try discriminate. injection NP as <-. destruct IP as [X|[]]. discriminate.
        * cbn in NP. injection NP as <-. destruct IP as [X|[X|[]]]; try discriminate. injection X as <- <- <-. destruct j as [|j]; cbn in NQ; try discriminate. injection NQ as <-. destruct IQ as [X|[]]. injection X as <-.
          cbn. replace (repeat (Ok v) (k - S j) ++ [Ok v]) with (repeat (Ok v) (k - j)); [apply ph_take; lia|]. replace (k - j) with (S (k - S j)) by lia. apply repeat_cons.
      + destruct CL.
      + apply at_two in AI. destruct AI as [[-> ->]|[-> ->]]; cbn in NP; try discriminate. destruct j as [|j]; cbn in NP; try discriminate. injection NP as <- <-. cbn. rewrite Nat.sub_0_r. apply ph_drain.
    - inversion H as [ps cl a b p u kk g P Q bs bs' IJ AI AJ NP IP NQ IQ OP|ps cl b p g Q bs AJ NQ IQ CL|ps cl a p kk P AI NP OP]; subst.
      + apply at_two in AI. apply at_two in AJ. destruct AI as [[-> ->]|[-> ->]], AJ as [[-> ->]|[-> ->]]; try lia; cbn in NP; injection NP as <-.
        * destruct IP as [X|[]]. discriminate.
        * destruct IP as [X|[X|[]]]; try discriminate. injection X as <- <- <-. cbn in NQ. injection NQ as <-. destruct IQ as [X|[]]. injection X as <-. apply ph_drain.
      + apply at_two in AJ. destruct CL as [<-|[]]. destruct AJ as [[-> ->]|[-> ->]]; cbn in NQ; injection NQ as <-.
        * destruct IQ as [X|[]]. discriminate.
        * destruct IQ as [X|[X|[]]]; try discriminate. injection X as <-. apply ph_close.
      + apply at_two in AI. destruct AI as [[-> ->]|[-> ->]]; discriminate.
    - inversion H as [ps cl a b p u kk g P Q bs bs' IJ AI AJ NP IP NQ IQ OP|ps cl b p g Q bs AJ NQ IQ CL|ps cl a p kk P AI NP OP]; subst.
      + apply at_two in AI. apply at_two in AJ. destruct AI as [[-> ->]|[-> ->]], AJ as [[-> ->]|[-> ->]]; try lia; cbn in NP, NQ; discriminate.
      + apply at_two in AJ. destruct CL as [<-|[]]. destruct AJ as [[-> ->]|[-> ->]]; cbn in NQ; try discriminate. injection NQ as <-. destruct IQ as [X|[]]. discriminate.
      + apply at_two in AI. destruct AI as [[-> ->]|[-> ->]]; cbn in NP; try discriminate. injection NP as <- <-. apply ph_end.
    - inversion H as [ps cl a b p u kk g P Q bs bs' IJ AI AJ NP IP NQ IQ OP|ps cl b p g Q bs AJ NQ IQ CL|ps cl a p kk P AI NP OP]; subst.
      + apply at_two in AI. apply at_two in AJ. destruct AI as [[-> ->]|[-> ->]], AJ as [[-> ->]|[-> ->]]; try lia; cbn in NP, NQ; discriminate.
      + apply at_two in AJ. destruct AJ as [[-> ->]|[-> ->]]; cbn in NQ; try discriminate. injection NQ as <-. destruct IQ as [X|[]]. injection X as <- <-. apply ph_done.
      + apply at_two in AI. destruct AI as [[-> ->]|[-> ->]]; discriminate.
    - inversion H as [ps cl a b p u kk g P Q bs bs' IJ AI AJ NP IP NQ IQ OP|ps cl b p g Q bs AJ NQ IQ CL|ps cl a p kk P AI NP OP]; subst.
      + apply at_two in AI. destruct AI as [[-> ->]|[-> ->]]; discriminate.
      + apply at_two in AJ. destruct AJ as [[-> ->]|[-> ->]]; discriminate.
      + apply at_two in AI. destruct AI as [[-> ->]|[-> ->]]; discriminate.
  Qed.
  Lemma phase_run : (n < 0)%Z -> forall t s, run endless t s -> phase s.
  Proof.
    intros Hn t s H. remember endless as s0 eqn:E. induction H as [s|s t s1 l s2 H IH ST].
    - subst s. unfold endless, source. rewrite (proj2 (Z.eqb_neq n 0)), (proj2 (Z.ltb_lt n 0)) by lia. replace (@nil (outcome V)) with (repeat (@Ok V v) (k - k)); [apply ph_take; lia|]. rewrite Nat.sub_diag. reflexivity.
    - eapply phase_step; [apply IH, E|exact ST].
  Qed.
  (* for a negative n: the k values arrive, nothing crashes; once it is closed the source can always return *)
  Theorem C72_endless_partial : forall t s, (n < 0)%Z -> run endless t s ->
    ~ crashes s /\ (finished step s -> returned s (repeat (Ok v) k ++ [Ok oneV]) /\ all_ended s) /\
    (In (Ctl 1) (closed s) -> nth_error (procs s) 1 = Some (PRepeat 1 v None) -> exists s', step s (Eof 1 (Ctl 1)) s' /\ nth_error (procs s') 1 = Some (PClose 1)).
  Proof.
    intros t s Hn RN. pose proof (phase_run Hn t s RN) as PH. repeat split.
    - intros C. destruct PH as [j J| | | |]; inversion C as [ps cl i P A N|ps cl i p kk P A N I|ps cl i p u kk P bs A N B I]; subst; apply at_two in A; destruct A as [[-> ->]|[-> ->]];
        try discriminate; try (destruct j; discriminate); try (destruct I; fail).
      + cbn in N. injection N as <-. destruct B as [X|[]]. discriminate.
      + cbn in N. injection N as <-. destruct B as [X|[X|[]]]; try discriminate. injection X as <- _ _. destruct I as [I|[]]. discriminate.
      + cbn in N. injection N as <- _. destruct I as [I|[]]. discriminate.
      + cbn in N. injection N as <-. destruct B as [X|[]]. discriminate.
      + cbn in N. injection N as <-. destruct B as [X|[]]. discriminate.
    - rename H into FN. destruct PH as [j J| | | |]; [exfalso|exfalso|exfalso|exfalso|].
      + destruct j as [|j].
        * eapply FN. eapply st_close with (i := 0); [reflexivity|reflexivity|intros []].
        * eapply FN. eapply st_comm with (i := 1) (j := 0); [discriminate|reflexivity|reflexivity|reflexivity|right; left; reflexivity|reflexivity|left; reflexivity|intros []].
      + eapply FN. eapply st_eof with (j := 1); [reflexivity|reflexivity|left; reflexivity|left; reflexivity].
      + eapply FN. eapply st_close with (i := 1); [reflexivity|reflexivity|]. intros [X|[]]. discriminate.
      + eapply FN. eapply st_eof with (j := 0); [reflexivity|reflexivity|left; reflexivity|left; reflexivity].
      + reflexivity.
    - rename H into FN. destruct PH as [j J| | | |]; [exfalso|exfalso|exfalso|exfalso|].
      + destruct j as [|j].
        * eapply FN. eapply st_close with (i := 0); [reflexivity|reflexivity|intros []].
        * eapply FN. eapply st_comm with (i := 1) (j := 0); [discriminate|reflexivity|reflexivity|reflexivity|right; left; reflexivity|reflexivity|left; reflexivity|intros []].
      + eapply FN. eapply st_eof with (j := 1); [reflexivity|reflexivity|left; reflexivity|left; reflexivity].
      + eapply FN. eapply st_close with (i := 1); [reflexivity|reflexivity|]. intros [X|[]]. discriminate.
      + eapply FN. eapply st_eof with (j := 0); [reflexivity|reflexivity|left; reflexivity|left; reflexivity].
      + intros i P LT E. apply at_two in E. destruct E as [[-> _]|[_ ->]]; [lia|reflexivity].
    - intros IC E. destruct PH as [j J| | | |]; cbn in E; try discriminate; [destruct IC|].
      eexists. split; [eapply st_eof with (j := 1); [reflexivity|reflexivity|left; reflexivity|left; reflexivity]|reflexivity].
  Qed.
End Endless.
(* But ↓C takes values while the source offers them: only the fairness of select ends it. *)
Theorem C72_endless_refuted : forall (V : Type) (errV emptyV oneV v : V) isEmpty ravel pack,
  let step := step errV emptyV oneV isEmpty ravel pack in
  exists r : nat -> sys V, r 0 = endless oneV v (-1) 0 /\ (In (Ctl 1) (closed (r 1))) /\ forall n, exists lab, step (r n) lab (r (S n)).
Proof.
  intros V errV emptyV oneV v isEmpty ravel pack step. set (d := mkSys [PMain (MDrain 1 (Ok oneV)) [] []; PRepeat 1 v None] [Ctl 1]).
  exists (fun n => match n with 0 => endless oneV v (-1) 0 | _ => d end). split; [reflexivity|]. split; [left; reflexivity|]. intros [|n].
  - exists (Closes 0 (Ctl 1)). exact (st_close errV emptyV oneV isEmpty ravel pack [PMain (MClose 1 (Ok oneV)) [] []; PRepeat 1 v None] [] 0 (Ctl 1) (PMain (MDrain 1 (Ok oneV)) [] []) (PMain (MClose 1 (Ok oneV)) [] []) eq_refl eq_refl (fun x => x)).
  - exists (Comm 1 0 (Data 1) v).
    refine (st_comm errV emptyV oneV isEmpty ravel pack [PMain (MDrain 1 (Ok oneV)) [] []; PRepeat 1 v None] [Ctl 1] 1 0 (Data 1) v (PRepeat 1 v None) _ (PRepeat 1 v None) (PMain (MDrain 1 (Ok oneV)) [] []) _ _ _ eq_refl eq_refl eq_refl (or_intror (or_introl eq_refl)) eq_refl (or_introl eq_refl) _); [discriminate|]. intros [X|[]]. discriminate.
Qed.

(* ---------- what goes wrong ---------- *)
Section Wrong.
  Local Notation step := (step 99 98 1 (fun _ => false) (fun v => [v]) (fun _ _ => 0)).
  Local Notation run := (run 99 98 1 (fun _ => false) (fun v => [v]) (fun _ _ => 0)).
  Local Notation crashes := (crashes 99 98 1 (fun _ => false) (fun v => [v]) (fun _ _ => 0)).
  Local Notation system := (system 1).
  Definition keep : func nat := fun _ v => Ok v.
  Definition fail : func nat := fun _ _ => Err.
  Ltac notin := let X := fresh in intros X; cbn in X; repeat (destruct X as [X|X]; [discriminate X|]); exact X.
  Tactic Notation "send" constr(i) constr(j) tactic(a) tactic(b) :=
    eapply (st_comm _ _ _ _ _ _ _ _ i j); [discriminate|reflexivity|reflexivity|reflexivity|a; left; reflexivity|reflexivity|b; left; reflexivity|notin].
  Tactic Notation "eof" constr(j) tactic(a) := eapply (st_eof _ _ _ _ _ _ _ _ j); [reflexivity|reflexivity|a; left; reflexivity|cbn; auto 10].
  Ltac clos i := eapply (st_close _ _ _ _ _ _ _ _ i); [reflexivity|reflexivity|notin].
  Lemma run_cons : forall s l s1 t s2, step s l s1 -> run s1 t s2 -> run s (l :: t) s2.
  Proof.
    intros s l s1 t s2 H RN. induction RN as [s1|s1 t s2 l' s3 RN IH ST]; [exact (run_snoc _ _ _ _ _ _ s [] s l s1 (run_nil _ _ _ _ _ _ s) H)|].
    exact (run_snoc _ _ _ _ _ _ s (l :: t) s2 l' s3 (IH H) ST).
  Qed.
  (* a test for states in which nothing can happen *)
  Local Notation next := (next 99 98 1 (fun _ => false) (fun v => [v]) (fun _ _ => 0)).
  Definition sends (P : proc nat) : list port := match next P with Sel bs => flat_map (fun b => match b with BSend p _ _ => [p] | _ => [] end) bs | _ => [] end.
  Definition recvs (P : proc nat) : list port := match next P with Sel bs => flat_map (fun b => match b with BRecv p _ => [p] | _ => [] end) bs | _ => [] end.
  Definition mem (p : port) (l : list port) : bool := if in_dec port_dec p l then true else false.
  Definition dead (s : sys nat) : bool :=
    forallb (fun P => match next P with DoClose _ _ => false | _ => true end) (procs s) &&
    forallb (fun P => forallb (fun p => negb (mem p (closed s)) && forallb (fun Q => negb (mem p (sends Q))) (procs s)) (recvs P)) (procs s).
  Lemma in_sends : forall P bs p v k, next P = Sel bs -> In (BSend p v k) bs -> In p (sends P).
  Proof. intros P bs p v k E I. unfold sends. rewrite E. apply in_flat_map. eexists. split; [exact I|]. left. reflexivity. Qed.
  Lemma in_recvs : forall P bs p g, next P = Sel bs -> In (BRecv p g) bs -> In p (recvs P).
  Proof. intros P bs p g E I. unfold recvs. rewrite E. apply in_flat_map. eexists. split; [exact I|]. left. reflexivity. Qed.
  Lemma mem_in : forall p l, In p l -> mem p l = true.
  Proof. intros p l I. unfold mem. destruct (in_dec port_dec p l); [reflexivity|contradiction]. Qed.
  Lemma dead_finished : forall s, dead s = true -> finished step s.
  Proof.
    intros s D lab s' H. unfold dead in D. apply andb_prop in D. destruct D as [D1 D2]. rewrite forallb_forall in D1, D2.
    destruct H as [ps cl i j p v k g P Q bs bs' IJ AI AJ NP IP NQ IQ OP|ps cl j p g Q bs AJ NQ IQ CL|ps cl i p k P AI NP OP]; cbn [procs closed] in *.
    - specialize (D2 Q (nth_error_In _ _ AJ)). rewrite forallb_forall in D2. specialize (D2 p (in_recvs _ _ _ _ NQ IQ)). apply andb_prop in D2. destruct D2 as [_ D2]. rewrite forallb_forall in D2.
      specialize (D2 P (nth_error_In _ _ AI)). rewrite (mem_in _ _ (in_sends _ _ _ _ _ NP IP)) in D2. discriminate.
    - specialize (D2 Q (nth_error_In _ _ AJ)). rewrite forallb_forall in D2. specialize (D2 p (in_recvs _ _ _ _ NQ IQ)). apply andb_prop in D2. destruct D2 as [D2 _]. rewrite (mem_in _ _ CL) in D2. discriminate.
    - specialize (D1 P (nth_error_In _ _ AI)). rewrite NP in D1. discriminate.
  Qed.
  (* closing f¨g¨C: the inner goroutines stay blocked for ever *)
  Theorem C72_chain_leaks_refuted : exists t s, run (system (Map keep None false (Map keep None false (Values [7; 8]))) [CloseC 1]) t s /\
    finished step s /\ returned s [Ok 1] /\ ~ all_ended s.
  Proof.
    do 2 eexists. split; [|split; [|split]].
    - eapply run_cons; [send 3 2 (right) (right)|]. eapply run_cons; [clos 0|]. eapply run_cons; [eof 1 idtac|]. eapply run_cons; [clos 1|]. eapply run_cons; [clos 1|]. eapply run_cons; [eof 0 idtac|]. apply run_nil.
    - apply dead_finished. reflexivity.
    - reflexivity.
    - intros X. specialize (X 2 _ ltac:(lia) eq_refl). discriminate.
  Qed.
  (* an error in L f¨ R of two channels leaves the sender of L blocked *)
  Theorem C72_zip_error_leaks_refuted : exists t s, run (system (Zip fail false (Values [1; 2]) (Values [5])) [Show 1]) t s /\
    finished step s /\ returned s [Ok 99] /\ ~ all_ended s.
  Proof.
    do 2 eexists. split; [|split; [|split]].
    - eapply run_cons; [send 2 1 (right) (right)|]. eapply run_cons; [send 3 1 (right) (idtac)|]. eapply run_cons; [send 1 0 (idtac) (idtac)|]. eapply run_cons; [clos 1|]. eapply run_cons; [clos 1|]. eapply run_cons; [clos 2|]. eapply run_cons; [eof 0 idtac|]. apply run_nil.
    - apply dead_finished. reflexivity.
    - reflexivity.
    - intros X. specialize (X 3 _ ltac:(lia) eq_refl). discriminate.
  Qed.
  (* closing a reshaped channel can panic in its goroutine, which ends the whole process *)
  Theorem C72_reshape_close_refuted : exists t s, run (system (Reshape [2] (Values [7; 8; 9])) [CloseC 1]) t s /\ crashes s.
  Proof.
    do 2 eexists. split.
    - eapply run_cons; [send 2 1 (right) (right)|]. eapply run_cons; [send 2 1 (right) (right)|]. eapply run_cons; [clos 0|]. eapply run_cons; [eof 1 idtac|]. eapply run_cons; [clos 1|]. eapply run_cons; [eof 1 idtac|]. apply run_nil.
    - eapply (cr_close _ _ _ _ _ _ _ _ 1); [reflexivity|reflexivity|cbn; auto].
  Qed.
End Wrong.
(* the hypotheses are met: 2 values are added pairwise and doubled, 10 is skipped by a filter *)
Definition add2 : func nat := fun l v => Ok (match l with Some a => a + v | None => v end).
Definition sub2 : func Z := fun l v => Ok (match l with Some a => (a - v)%Z | None => v end).
Example C91_example :
  let p := Map add2 (Some 100) false (Zip add2 false (Values [1; 2; 3]) (Scope (File [10; 20; 30]))) in
  let ops := [Take 1; TakeN 1 [2]; Take 1; CloseC 1] in
  tidy 1 ops /\ fits p /\ plain p /\ results 98 1 (fun _ l => fold_right Nat.add 0 l) ops (outputs 99 (fun _ => false) (fun v => [v]) (fun _ _ => 0) p) = [Ok 111; Ok (122 + 133); Err; Ok 1].
Proof.
  assert (NP : no_panic add2) by discriminate. assert (NF : never_fails add2) by discriminate. cbn zeta. split; [|split; [|split]].
  - split; [|cbn; lia]. repeat constructor.
  - cbn. tauto.
  - cbn. tauto.
  - reflexivity.
Qed.
Example C92_example : fits (Zip add2 false (Values [1]) (Values [5; 6])) /\ outputs 99 (fun _ => false) (fun v => [v]) (fun _ _ => 0) (Zip add2 false (Values [1]) (Values [5; 6])) = [6; 6].
Proof. split; [|reflexivity]. repeat split; try discriminate. left. exact I. Qed.
(* -/C is (1-2)-3, while -/1 2 3 is 1-(2-3) *)
Example C93_example : fold1 0%Z sub2 [1; 2; 3]%Z = Ok (-4)%Z.
Proof. reflexivity. Qed.
Example C74_example : fits (Reshape [2; 2] (Values [1; 2; 3; 4; 5; 6])) /\ groups 4 [1; 2; 3; 4; 5; 6] = [[1; 2; 3; 4]] /\ drains (Reshape [2; 2] (Values [1; 2; 3; 4; 5; 6])).
Proof. split; [|split; [reflexivity|exact I]]. split; [cbn; lia|exact I]. Qed.
Example C72_example : let p := Map add2 None false (Scope (Repeat 7 3)) in tidy 1 [@Take nat 1; CloseC 1] /\ fits p /\ plain p /\ one_apply p /\ exhausts [Take 1; @CloseC nat 1].
Proof.
  assert (NP : no_panic add2) by discriminate. cbn zeta. split; [|split; [|split; [|split]]]; cbn; auto.
  - split; [|cbn; lia]. repeat constructor.
  - exists (CloseC 1). cbn. auto.
Qed.
(* <R without an axis sends R 1+⎕IO times *)
Example source_twice : source_count None 1 = 2%Z.
Proof. reflexivity. Qed.
Print Assumptions C91_results.
Print Assumptions C91_terminates.
Print Assumptions C72_closed_ends_partial.
Print Assumptions C72_drained_ends_partial.
Print Assumptions C74_chunks.
