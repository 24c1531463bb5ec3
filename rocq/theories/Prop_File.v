(* Prop_File.v -- C125: running a file. *)
From Verif Require Import Base M_Scan M_Syntax M_Parse S_Parse P_Parse P_Lines M_File S_File.
From Coq Require Import String List Lia.
Import ListNotations.
Open Scope Z_scope.
Open Scope list_scope.

Section Props.
  Context {D St : Type} (G : grammar D) (C : scanner) (eval : list (option (expr D)) -> St -> outcome unit * St).
  Notation file_loop := (file_loop G C eval).
  Notation file_ends := (file_ends G C eval).
  Notation run_lines := (run_lines G C eval).
  (* eval.go:18 recovers panics *)
  Definition recovers : Prop := forall p s, fst (eval p s) <> Panic.

  Lemma joined_blank (tl : list (list token)) : joined (tl ++ [[]]) = joined tl.
  Proof. rewrite joined_snoc. reflexivity. Qed.
  Lemma good_open tl b : good tl b -> 0 < open_braces (joined tl) -> b_tokens b <> [].
  Proof. intros (T & _) O. rewrite T. intros E. rewrite E in O. cbv in O. discriminate O. Qed.
  Lemma loop_open ls : forall ts tl b n ok s rest, good tl b -> Forall2 (fun l t => Scan C l = Ok t) ls ts ->
    (forall a c, ts = a ++ c -> a <> [] -> no_surplus (joined (tl ++ a)) /\ 0 < open_braces (joined (tl ++ a))) ->
    exists b', good (tl ++ ts) b' /\
      file_loop (ls ++ rest) n ok b s = file_loop rest (n + zlen ls) (match ls with [] => ok | _ => false end) b' s.
  Proof.
    induction ls as [|l ls IH]; intros ts tl b n ok s rest GD F H; inversion F as [|? t ? ts' S F']; subst.
    - exists b. rewrite app_nil_r. split; [exact GD|]. cbn [app]. rewrite zlen_nil, Z.add_0_r. reflexivity.
    - destruct (H [t] ts' eq_refl ltac:(discriminate)) as (N1 & O1).
      assert (A : exists b1, AddLine C l b = (Ok false, b1) /\ good (tl ++ [t]) b1).
      { destruct (Add_spec C tl b l t GD S) as [[-> E]|[(_ & _ & b1 & E & G1)|(_ & X & _)]]; [| |contradiction].
        - exists b. split; [exact E|]. unfold good in *. rewrite joined_blank. exact GD.
        - exists b1. rewrite E. replace (open_braces (joined (tl ++ [t])) =? 0) with false by lia. split; [reflexivity|exact G1]. }
      destruct A as (b1 & A & G1).
      destruct (IH ts' (tl ++ [t]) b1 (n + 1) false s rest G1 F') as (b' & G2 & E).
      { intros a c Ea Na. rewrite <- app_assoc. apply (H (t :: a) c); [rewrite Ea; reflexivity|discriminate]. }
      exists b'. rewrite <- app_assoc in G2. split; [exact G2|]. cbn [app M_File.file_loop]. rewrite A. cbn zeta. rewrite E.
      rewrite zlen_cons. replace (n + 1 + zlen ls) with (n + (1 + zlen ls)) by lia. destruct ls; reflexivity.
  Qed.
  Lemma loop_statement ls ts : statement C ls ts -> forall n ok s rest,
    file_loop (ls ++ rest) n ok NewLineBuffer s =
    match parse G (joined ts) with
    | Ok p => match eval p s with
              | (Ok _, s1) => file_loop rest (n + zlen ls) true NewLineBuffer s1
              | (Err, s1) => (FErr (n + zlen ls), s1)
              | (Panic, s1) => (FPanic, s1)
              end
    | Err => (FErr (n + zlen ls), s)
    | Panic => (FPanic, s)
    end.
  Proof.
    intros H n ok s rest. destruct H as [ls ts l t (F & O) S T N Z]. rewrite <- app_assoc.
    destruct (loop_open ls ts [] NewLineBuffer n ok s ([l] ++ rest) good_new F O) as (b & GD & E). rewrite E. cbn [app] in GD |- *. cbn [M_File.file_loop].
    destruct (Add_spec C ts b l t GD S) as [[-> X]|[(_ & _ & b1 & X & G1)|(_ & Y & _)]]; [contradiction| |contradiction].
    rewrite X, Z. change (0 =? 0) with true. cbn iota beta. unfold Parse. destruct G1 as (-> & _).
    rewrite zlen_app. change (zlen [l]) with 1. rewrite Z.add_assoc. reflexivity.
  Qed.
  Lemma surplus_add ts b l t : good ts b -> Scan C l = Ok t -> ~ no_surplus (joined (ts ++ [t])) -> AddLine C l b = (Err, NewLineBuffer).
  Proof.
    intros GD S N. destruct (Add_spec C ts b l t GD S) as [[-> _]|[(_ & X & _)|(_ & _ & E)]]; [|contradiction|exact E].
    exfalso. apply N. rewrite joined_blank. apply GD.
  Qed.
  Lemma ends_loop n ls s r s' : file_ends n ls s r s' -> forall ok, file_loop ls n ok NewLineBuffer s = (r, s').
  Proof.
    induction 1 as [n s|n l rest s r s' B _ IH|n ls ts rest p s s1 u r s2 T P E _ IH|n ls ts rest p s s1 T P E|n ls ts rest s T P|n ls ts rest s T P|n ls ts l rest s (F & O) U|n ls ts l t rest s (F & O) S N|n ls ts s (F & O) NE]; intros ok.
    - cbn. rewrite Bool.andb_false_r. reflexivity.
    - cbn [M_File.file_loop]. unfold AddLine at 1. rewrite B. cbn zeta. apply IH.
    - rewrite (loop_statement ls ts T), P, E. apply IH.
    - rewrite (loop_statement ls ts T), P, E. reflexivity.
    - rewrite (loop_statement ls ts T), P. reflexivity.
    - rewrite (loop_statement ls ts T), P. reflexivity.
    - destruct (loop_open ls ts [] NewLineBuffer n ok s (l :: rest) good_new F O) as (b & GD & E). rewrite E. cbn [M_File.file_loop].
      unfold AddLine at 1. destruct (Scan C l) as [t| |] eqn:X; [destruct (U t X)|reflexivity|reflexivity].
    - destruct (loop_open ls ts [] NewLineBuffer n ok s (l :: rest) good_new F O) as (b & GD & E). rewrite E. cbn [M_File.file_loop].
      rewrite (surplus_add ts b l t GD S N). reflexivity.
    - destruct (loop_open ls ts [] NewLineBuffer n ok s [] good_new F O) as (b & GD & E). rewrite app_nil_r in E. rewrite E. cbn [M_File.file_loop].
      cbn [app] in GD. assert (TN : ts <> []) by (destruct ls; [congruence|inversion F; discriminate]).
      destruct (O ts [] (eq_sym (app_nil_r ts)) TN) as (_ & O1). pose proof (good_open ts b GD O1) as X.
      destruct (b_tokens b); [congruence|]. destruct ls; [congruence|]. reflexivity.
  Qed.
  Lemma open_snoc ls ts l t : open_lines C ls ts -> Scan C l = Ok t -> no_surplus (joined (ts ++ [t])) -> 0 < open_braces (joined (ts ++ [t])) ->
    open_lines C (ls ++ [l]) (ts ++ [t]).
  Proof.
    intros (F & O) S N P. split; [apply Forall2_app; [exact F|constructor; [exact S|constructor]]|].
    intros a b E Na. destruct b as [|x b] using rev_ind.
    - rewrite app_nil_r in E. subst a. split; assumption.
    - rewrite app_assoc in E. apply app_inj_tail in E. destruct E as [E _]. apply (O a b E Na).
  Qed.
  Lemma ends_total : recovers -> forall rest ls ts n s, open_lines C ls ts -> exists r s', file_ends n (ls ++ rest) s r s'.
  Proof.
    intros R. induction rest as [|l rest IH]; intros ls ts n s O.
    - rewrite app_nil_r. destruct ls as [|l ls]; [do 2 eexists; apply fe_nil|]. do 2 eexists. eapply fe_open; [exact O|discriminate].
    - assert (IH0 : forall m s, exists r s', file_ends m rest s r s').
      { intros m s0. apply (IH [] [] m s0). split; [constructor|]. intros a b E Na. destruct a; [congruence|discriminate E]. }
      destruct (Scan C l) as [t| |] eqn:S; [|do 2 eexists; eapply fe_unread; [exact O|intros t; congruence]..].
      destruct t as [|t0 t'].
      { destruct ls as [|l0 ls0].
        - destruct (IH0 (n + 1) s) as (r & s' & E). exists r, s'. cbn [app]. apply fe_blank; [exact S|exact E].
        - destruct (IH ((l0 :: ls0) ++ [l]) (ts ++ [[]]) n s) as (r & s' & E).
          + assert (TN : ts <> []) by (destruct O as (F & _); inversion F; discriminate).
            pose proof O as (F & O1). destruct (O1 ts [] (eq_sym (app_nil_r ts)) TN) as (N & P).
            apply open_snoc; [exact O|exact S|rewrite joined_blank; exact N|rewrite joined_blank; exact P].
          + exists r, s'. rewrite <- app_assoc in E. exact E. }
      set (t := t0 :: t') in *. assert (TN : t <> []) by discriminate.
      assert (GD : exists b, good ts b).
      { destruct O as (F & O1). destruct (loop_open ls ts [] NewLineBuffer n true s [] good_new F O1) as (b & GD & _). exists b. exact GD. }
      destruct GD as (b & GD).
      destruct (Add_spec C ts b l t GD S) as [[X _]|[(_ & N & b1 & _ & G1)|(_ & N & _)]]; [contradiction| |].
      + destruct (Z.eq_dec (open_braces (joined (ts ++ [t]))) 0) as [Z|Z].
        * assert (T : statement C (ls ++ [l]) (ts ++ [t])) by (apply stat; assumption).
          replace (ls ++ l :: rest) with ((ls ++ [l]) ++ rest) by (rewrite <- app_assoc; reflexivity).
          destruct (parse G (joined (ts ++ [t]))) as [p| |] eqn:P.
          -- destruct (eval p s) as [[u| |] s1] eqn:E.
             ++ destruct (IH0 (n + zlen (ls ++ [l])) s1) as (r & s2 & E2). exists r, s2. eapply fe_run; eassumption.
             ++ do 2 eexists. eapply fe_fails; eassumption.
             ++ exfalso. apply (R p s). rewrite E. reflexivity.
          -- do 2 eexists. eapply fe_syntax; eassumption.
          -- do 2 eexists. eapply fe_panic; eassumption.
        * assert (P : 0 < open_braces (joined (ts ++ [t]))).
          { pose proof (N (joined (ts ++ [t])) [] (eq_sym (app_nil_r _))). lia. }
          destruct (IH (ls ++ [l]) (ts ++ [t]) n s) as (r & s' & E); [apply open_snoc; assumption|].
          exists r, s'. rewrite <- app_assoc in E. exact E.
      + do 2 eexists. eapply fe_surplus; eassumption.
  Qed.

  (* Running the lines of a file evaluates its statements one after the other, each one as soon
     as its braces are closed, until the first error, which tells the number of the line. *)
  Theorem C125_lines ls s r s' : recovers -> (run_lines ls s = (r, s') <-> file_ends 0 ls s r s').
  Proof.
    intros R. split; [|intros H; apply ends_loop; exact H]. intros E.
    destruct (ends_total R ls [] [] 0 s) as (r1 & s1 & H); [split; [constructor|intros a b E1 N; destruct a; [congruence|discriminate E1]]|].
    cbn [app] in H. pose proof (ends_loop _ _ _ _ _ H true) as E1. unfold M_File.run_lines in E. congruence.
  Qed.
  (* Files can be concatenated: the lines of two files, one after the other, are the first file
     and then the second, if the first one ends without an error. *)
  Lemma ends_app n l1 s r s1 : file_ends n l1 s r s1 -> r = FOk -> forall l2 r2 s2, file_ends (n + zlen l1) l2 s1 r2 s2 -> file_ends n (l1 ++ l2) s r2 s2.
  Proof.
    induction 1 as [n s|n l rest s r s' B _ IH|n ls ts rest p s s1 u r s2 T P E _ IH| | | | | |]; intros ER l2 r2 s3 H2; try discriminate ER.
    - rewrite zlen_nil, Z.add_0_r in H2. exact H2.
    - cbn [app]. apply fe_blank; [exact B|]. apply IH; [exact ER|]. rewrite zlen_cons in H2. replace (n + 1 + zlen rest) with (n + (1 + zlen rest)) by lia. exact H2.
    - rewrite <- app_assoc. eapply fe_run; try eassumption. apply IH; [exact ER|]. rewrite zlen_app in H2. replace (n + zlen ls + zlen rest) with (n + (zlen ls + zlen rest)) by lia. exact H2.
  Qed.
  Definition shift (k : Z) (r : fileres) : fileres := match r with FErr n => FErr (k + n) | _ => r end.
  Lemma ends_shift k n l s r s' : file_ends n l s r s' -> file_ends (k + n) l s (shift k r) s'.
  Proof.
    induction 1 as [n s|n l rest s r s' B _ IH|n ls ts rest p s s1 u r s2 T P E _ IH|n ls ts rest p s s1 T P E|n ls ts rest s T P|n ls ts rest s T P|n ls ts l rest s (F & O) U|n ls ts l t rest s (F & O) S N|n ls ts s (F & O) NE]; cbn [shift].
    - apply fe_nil.
    - apply fe_blank; [exact B|]. rewrite Z.add_assoc in IH. exact IH.
    - eapply fe_run; try eassumption. rewrite Z.add_assoc in IH. exact IH.
    - rewrite Z.add_assoc. eapply fe_fails; eassumption.
    - rewrite Z.add_assoc. eapply fe_syntax; eassumption.
    - eapply fe_panic; eassumption.
    - rewrite !Z.add_assoc. eapply fe_unread; [split|]; eassumption.
    - rewrite !Z.add_assoc. eapply fe_surplus; [split| |]; eassumption.
    - rewrite Z.add_assoc. eapply fe_open; [split|]; eassumption.
  Qed.
  Theorem C125_concatenated l1 l2 s s1 : recovers -> run_lines l1 s = (FOk, s1) ->
    run_lines (l1 ++ l2) s = (let (r, s2) := run_lines l2 s1 in (shift (zlen l1) r, s2)).
  Proof.
    intros R E1. apply C125_lines in E1; [|exact R]. destruct (run_lines l2 s1) as [r s2] eqn:E2. apply C125_lines in E2; [|exact R].
    apply C125_lines; [exact R|]. eapply ends_app; [exact E1|reflexivity|]. apply (ends_shift (zlen l1)) in E2. rewrite Z.add_0_r in E2. exact E2.
  Qed.
  (* The lines of a text. *)
  Theorem C125_text too_long ls s : (forall l, In l ls -> ~ In 10 l /\ last l 0 <> 13 /\ too_long l = false) -> ls <> [] ->
    EvalFile G C eval too_long (flat_map (fun l => l ++ [10]) ls) s = run_lines ls s
    /\ EvalFile G C eval too_long (flat_map (fun l => l ++ [13; 10]) ls) s = run_lines ls s.
  Proof.
    intros H _.
    assert (SP : forall l r, ~ In 10 l -> split_lines (l ++ 10 :: r) = l :: split_lines r).
    { induction l as [|c l IH]; intros r N; cbn [app split_lines]; [change (10 =? 10) with true; reflexivity|].
      replace (c =? 10) with false by (symmetry; apply Z.eqb_neq; intros ->; apply N; left; reflexivity).
      rewrite IH by (intros I; apply N; right; exact I). reflexivity. }
    assert (UN : forall ls, (forall l, In l ls -> too_long l = false) -> until too_long ls = ls).
    { induction ls0 as [|l ls0 IH]; intros K; [reflexivity|]. cbn [until]. rewrite (K l (or_introl eq_refl)). f_equal. apply IH. intros x I. apply K. right. exact I. }
    assert (CR : forall l, last l 0 <> 13 -> dropCR l = l).
    { intros l N. unfold dropCR. destruct l as [|x l] using rev_ind; [reflexivity|]. rewrite rev_app_distr. cbn [rev app]. rewrite last_last in N.
      destruct (Z.eq_dec x 13) as [->|X]; [congruence|]. destruct x as [|q|q]; try reflexivity.
      do 4 (destruct q as [q|q|]; try reflexivity). congruence. }
    assert (CR2 : forall l, dropCR (l ++ [13]) = l) by (intros l; unfold dropCR; rewrite rev_app_distr; cbn [rev app]; apply rev_involutive).
    assert (TL : forall e, (e = [] \/ e = [13]) -> text_lines (flat_map (fun l => l ++ e ++ [10]) ls) = ls).
    { intros e He. unfold text_lines.
      assert (E : split_lines (flat_map (fun l => l ++ e ++ [10]) ls) = map (fun l => l ++ e) ls ++ [[]]).
      { clear - H SP He. induction ls as [|l ls IH]; [reflexivity|]. cbn [flat_map map app].
        replace ((l ++ e ++ [10]) ++ flat_map (fun l0 => l0 ++ e ++ [10]) ls) with ((l ++ e) ++ 10 :: flat_map (fun l0 => l0 ++ e ++ [10]) ls) by (rewrite <- !app_assoc; reflexivity).
        rewrite SP; [rewrite IH; [reflexivity|intros x I; apply H; right; exact I]|].
        intros I. apply in_app_or in I. destruct I as [I|I]; [apply (proj1 (H l (or_introl eq_refl))); exact I|]. destruct He as [->| ->]; [destruct I|destruct I as [I|[]]; discriminate I]. }
      rewrite E, rev_app_distr. cbn [rev app]. rewrite rev_involutive, map_map. rewrite <- (map_id ls) at 2. apply map_ext_in. intros l I.
      destruct He as [->| ->]; [rewrite app_nil_r; apply CR; apply H; exact I|apply CR2]. }
    unfold EvalFile. split.
    - exact (eq_trans (f_equal (fun x => M_File.run_lines G C eval (until too_long x) s) (TL [] (or_introl eq_refl))) (f_equal (fun x => M_File.run_lines G C eval x s) (UN ls (fun l I => proj2 (proj2 (H l I)))))).
    - exact (eq_trans (f_equal (fun x => M_File.run_lines G C eval (until too_long x) s) (TL [13] (or_intror eq_refl))) (f_equal (fun x => M_File.run_lines G C eval x s) (UN ls (fun l I => proj2 (proj2 (H l I)))))).
  Qed.
  (* The full claim is false: a line that is too long for the scanner ends the file without an
     error, and of several files only the first one is run. *)
  Theorem C125_long_line_refuted too_long l1 l l2 s : (forall x, In x l1 -> too_long x = false) -> too_long l = true ->
    run_lines (until too_long (l1 ++ l :: l2)) s = run_lines l1 s.
  Proof.
    intros H T. f_equal. induction l1 as [|x l1 IH]; cbn [app until]; [rewrite T; reflexivity|].
    rewrite (H x (or_introl eq_refl)). f_equal. apply IH. intros y I. apply H. right. exact I.
  Qed.
  Theorem C125_files_refuted too_long open name names s : Apl G C eval too_long open (name :: names) s = Apl G C eval too_long open [name] s.
  Proof. reflexivity. Qed.

  (* ---------- C126: the interactive loop ---------- *)
  Notation repl := (repl G C eval).
  (* what a single line does *)
  Inductive line_does (l : text) (s : St) : bool -> St -> Prop :=
  | ld_scan : Scan C l = Err -> line_does l s true s
  | ld_parse t : Scan C l = Ok t -> parse G t = Err -> line_does l s true s
  | ld_error t p s' : Scan C l = Ok t -> parse G t = Ok p -> eval p s = (Err, s') -> line_does l s true s'
  | ld_ok t p u s' : Scan C l = Ok t -> parse G t = Ok p -> eval p s = (Ok u, s') -> line_does l s false s'.
  Inductive session : list text -> St -> list bool -> St -> Prop :=
  | se_nil s : session [] s [] s
  | se_line l ls s e s1 es s2 : line_does l s e s1 -> session ls s1 es s2 -> session (l :: ls) s (e :: es) s2.
  Lemma does_spec l s e s1 : line_does l s e s1 <-> ParseAndEval G C eval l s = (if e then Err else Ok Datatypes.tt, s1).
  Proof.
    unfold ParseAndEval. split.
    - intros [X|t X Y|t p s' X Y Z|t p u s' X Y Z]; rewrite X; cbn [obind]; try rewrite Y; try rewrite Z; try reflexivity; destruct u; reflexivity.
    - destruct (Scan C l) as [t| |] eqn:X; cbn [obind].
      + destruct (parse G t) as [p| |] eqn:Y.
        * destruct (eval p s) as [[u| |] s'] eqn:Z; intros E; destruct e; try discriminate E; injection E; intros; subst; [eapply ld_ok|eapply ld_error]; try eassumption. 
        * intros E; destruct e; try discriminate E. injection E as <-. eapply ld_parse; eassumption.
        * intros E; destruct e; discriminate E.
      + intros E; destruct e; try discriminate E. injection E as <-. apply ld_scan. exact X.
      + intros E; destruct e; discriminate E.
  Qed.
  Theorem C126_session ls s es s' : repl ls s = (Ok es, s') <-> session ls s es s'.
  Proof.
    revert s es s'. induction ls as [|l ls IH]; intros s es s'; cbn [M_File.repl].
    - split; [intros E; injection E as <- <-; constructor|intros H; inversion H; reflexivity].
    - split.
      + destruct (ParseAndEval G C eval l s) as [[u| |] s1] eqn:P; [| |discriminate].
        * destruct (repl ls s1) as [[e1| |] s2] eqn:R; cbn [obind]; intros E; try discriminate E. injection E as <- <-.
          econstructor; [apply does_spec; rewrite P; destruct u; reflexivity|apply IH; exact R].
        * destruct (repl ls s1) as [[e1| |] s2] eqn:R; cbn [obind]; intros E; try discriminate E. injection E as <- <-.
          econstructor; [apply does_spec; rewrite P; reflexivity|apply IH; exact R].
      + intros H. inversion H as [|? ? ? e s1 es' s2 DD S]; subst. apply does_spec in DD. apply IH in S. rewrite DD. destruct e; rewrite S; reflexivity.
  Qed.
  (* Errors do not stop the session, and they never spoil what was typed before or comes later. *)
  Lemma session_app l1 s e1 s1 : session l1 s e1 s1 -> forall l2 e2 s2, session l2 s1 e2 s2 -> session (l1 ++ l2) s (e1 ++ e2) s2.
  Proof. induction 1; intros; cbn [app]; [assumption|]. econstructor; eauto. Qed.
  Theorem C126_survives l1 l l2 s e1 s1 e2 s2 :
    repl l1 s = (Ok e1, s1) -> Scan C l = Err \/ (exists t, Scan C l = Ok t /\ parse G t = Err) -> repl l2 s1 = (Ok e2, s2) ->
    repl (l1 ++ l :: l2) s = (Ok (e1 ++ true :: e2), s2).
  Proof.
    rewrite !C126_session. intros A B H2. eapply session_app; [exact A|]. econstructor; [|exact H2].
    destruct B as [B|(t & B1 & B2)]; [apply ld_scan|eapply ld_parse]; eassumption.
  Qed.
  (* The same lines in a file, if each one is complete and there is no error: the same effect. *)
  Theorem C126_file ls s s' : recovers ->
    (forall l t, In l ls -> Scan C l = Ok t -> t <> [] /\ no_surplus t /\ open_braces t = 0) ->
    run_lines ls s = (FOk, s') <-> repl ls s = (Ok (repeat false (length ls)), s').
  Proof.
    intros R B. rewrite C125_lines by exact R. rewrite C126_session.
    assert (J : forall t : list token, joined [t] = t).
    { intros t. destruct t; reflexivity. }
    split.
    - intros H. pose (n0 := 0). change (file_ends n0 ls s FOk s') in H. clearbody n0. remember FOk as r eqn:Er. revert B.
      induction H as [n s|n l rest s r s' Bl _ IH|n ls ts rest p s s1 u r s2 T P E _ IH| | | | | |]; intros B; try discriminate Er.
      + constructor.
      + destruct (B l [] (or_introl eq_refl) Bl) as (X & _). congruence.
      + assert (ONE : exists l t, ls = [l] /\ ts = [t] /\ Scan C l = Ok t).
        { destruct T as [ls ts l t (F & O) S1 TN N Z]. destruct F as [|l0 t0 ls' ts' S0 F]; [exists l, t; repeat split; exact S1|].
          exfalso. destruct (O [t0] ts' eq_refl ltac:(discriminate)) as (_ & P0).
          destruct (B l0 t0 (or_introl eq_refl) S0) as (_ & _ & Z0). rewrite J, Z0 in P0. inversion P0. }
        destruct ONE as (l & t & -> & -> & S1). rewrite J in P. cbn [app length repeat]. econstructor; [eapply ld_ok; eassumption|].
        apply IH; [exact Er|]. intros l' t' I. apply B. right. exact I.
    - intros H. generalize 0 as n. remember (repeat false (length ls)) as es eqn:Ee. revert B Ee.
      induction H as [s|l ls s e s1 es s2 DD _ IH]; intros B Ee n; [apply fe_nil|]. cbn [length repeat] in Ee. injection Ee as -> Ee.
      inversion DD as [| | |t p u ? S1 P E]; subst. destruct (B l t (or_introl eq_refl) S1) as (TN & N & Z).
      change (l :: ls) with ([l] ++ ls). eapply fe_run with (ts := [t]); [|rewrite J; exact P|exact E|].
      + apply (stat C [] [] l t); [split; [constructor|]|exact S1|exact TN|cbn [app]; rewrite J; exact N|cbn [app]; rewrite J; exact Z]. intros a b Ea Na. destruct a; [congruence|discriminate Ea].
      + apply IH; [|reflexivity]. intros l' t' I. apply B. right. exact I.
  Qed.
End Props.
Print Assumptions C126_session.
Print Assumptions C126_file.
Print Assumptions C125_lines.
Print Assumptions C125_text.

(* ---------- an example ---------- *)
From Verif Require Import Prop_Parse.
(* the state is the list of the programs that were evaluated; a program of two or more
   expressions fails *)
Definition record_eval (p : list (option (expr text))) (s : list (list (option (expr text)))) :
  outcome unit * list (list (option (expr text))) :=
  match p with [_] => (Ok Datatypes.tt, p :: s) | _ => (Err, s) end.
(* 1+2
   (blank line)
   {3
   4}
   5    : five lines and three programs, the second one on two lines *)
Definition demo_file (l5 : text) : text :=
  flat_map (fun l => l ++ [10]) [chars "1+2"; []; chars "{3"; chars "4}"; l5].
Example C125_example :
  recovers record_eval /\
  let run l5 := EvalFile demo demo_scanner record_eval (fun l => 20 <? zlen l) (demo_file l5) [] in
  let p1 := [Some (EApp (FPrim "+") (Some (num "1")) (num "2") false)] in
  let p2 := [Some (EFn (FLam [Guard None (Some (num "3")); Guard None (Some (num "4"))]))] in
  run (chars "5") = (FOk, [[Some (num "5")]; p2; p1])
  /\ run (chars "5}") = (FErr 5, [p2; p1])           (* too many braces *)
  /\ run (chars "{5") = (FErr 5, [p2; p1])           (* not closed at the end *)
  /\ run (chars "5+") = (FErr 5, [p2; p1])           (* syntax error *)
  /\ run (chars "1+2+3+4+5+6+7+8+9+10+11)") = (FOk, [p2; p1])   (* too long: silently ignored *).
Proof. split; [intros [|p [|q r]] s; discriminate|]. cbn zeta. repeat split; vm_compute; reflexivity. Qed.

Example C126_example :
  repl demo demo_scanner record_eval [chars "1+2"; chars "3+)"; chars "4"] [] =
    (Ok [false; true; false], [[Some (num "4")]; [Some (EApp (FPrim "+") (Some (num "1")) (num "2") false)]])
  /\ (forall l t, In l [chars "1+2"; chars "4"] -> Scan demo_scanner l = Ok t -> t <> [] /\ no_surplus t /\ open_braces t = 0)
  /\ fst (run_lines demo demo_scanner record_eval [chars "1+2"; chars "4"] []) = FOk.
Proof.
  split; [vm_compute; reflexivity|]. split; [|vm_compute; reflexivity].
  intros l t [<-|[<-|[]]] E; vm_compute in E; injection E as <-;
    (split; [discriminate|split; [|reflexivity]]); intros a b Eab; 
    repeat (destruct a as [|? a]; [vm_compute; congruence|injection Eab as <- Eab]); (destruct a as [|? a]; [vm_compute; congruence|discriminate Eab]).
Qed.
