(* P_Chan.v -- ownership of channels: no goroutine sends on or closes a closed channel. *)
From Coq Require Import List Bool Arith Lia.
From Verif Require Import Base M_Chan S_Chan.
Import ListNotations.
Open Scope list_scope.
Open Scope nat_scope.

  Lemma nth_upd : forall A (l : list A) i x j, nth_error (upd l i x) j = if i =? j then (if j <? length l then Some x else None) else nth_error l j.
  Proof.
    intros A l. unfold upd. induction l as [|a l IH]; intros i x j.
    - rewrite firstn_nil, skipn_nil. cbn. destruct (i =? j), j; reflexivity.
    - destruct i as [|i]; cbn [firstn skipn app].
      + destruct j; reflexivity.
      + destruct j as [|j]; [reflexivity|]. cbn [nth_error]. rewrite IH. reflexivity.
  Qed.
  Lemma length_upd : forall A (l : list A) i x, length (upd l i x) = length l.
  Proof.
    intros A l. unfold upd. induction l as [|a l IH]; intros i x; [rewrite firstn_nil, skipn_nil; reflexivity|].
    destruct i as [|i]; [reflexivity|]. cbn. rewrite IH. reflexivity.
  Qed.
  Lemma nth_upd_same : forall A (l : list A) i x y, nth_error l i = Some y -> nth_error (upd l i x) i = Some x.
  Proof. intros A l i x y H. rewrite nth_upd, Nat.eqb_refl. assert (i < length l) by (apply nth_error_Some; congruence). destruct (i <? length l) eqn:E; [reflexivity|]. apply Nat.ltb_ge in E. lia. Qed.
  Lemma nth_upd_other : forall A (l : list A) i x j, i <> j -> nth_error (upd l i x) j = nth_error l j.
  Proof. intros A l i x j H. rewrite nth_upd. apply Nat.eqb_neq in H. rewrite H. reflexivity. Qed.

Section Chan.
  Context {V : Type} (errV emptyV oneV : V) (isEmpty : V -> bool) (ravel : V -> list V) (pack : list nat -> list V -> V).
  Local Notation proc := (proc V).
  Local Notation func := (func V).
  Local Notation sys := (sys V).
  Local Notation next := (next errV emptyV oneV isEmpty ravel pack).
  Local Notation step := (step errV emptyV oneV isEmpty ravel pack).
  Local Notation crashes := (crashes errV emptyV oneV isEmpty ravel pack).
  Local Notation main_next := (main_next oneV).
  Local Notation apply_call := (apply_call isEmpty).

  Definition at_ (s : sys) (c : nat) (P : proc) : Prop := nth_error (procs s) c = Some P.
  Definition open (s : sys) (p : port) : Prop := ~ In p (closed s).
  Definition can_send (P : proc) (p : port) (v : V) (k : proc) : Prop := exists bs, next P = Sel bs /\ In (BSend p v k) bs.
  Definition can_recv (P : proc) (p : port) (g : option V -> proc) : Prop := exists bs, next P = Sel bs /\ In (BRecv p g) bs.

  Lemma at_fun : forall s c P Q, at_ s c P -> at_ s c Q -> P = Q.
  Proof. unfold at_. congruence. Qed.
  Definition still (lab : label V) (c : nat) : Prop :=
    match lab with Comm i j _ _ => c <> i /\ c <> j | Eof j _ => c <> j | Closes i _ => c <> i end.
  (* what a step does to one goroutine *)
  Inductive moved (s s' : sys) (c : nat) (P P' : proc) : label V -> Prop :=
  | mv_still lab : still lab c -> P' = P -> moved s s' c P P' lab
  | mv_send j pt v Q g : c <> j -> can_send P pt v P' -> open s pt -> at_ s j Q -> can_recv Q pt g -> moved s s' c P P' (Comm c j pt v)
  | mv_recv i pt v g Q k : i <> c -> can_recv P pt g -> open s pt -> P' = g (Some v) -> at_ s i Q -> can_send Q pt v k -> moved s s' c P P' (Comm i c pt v)
  | mv_eof pt g : can_recv P pt g -> In pt (closed s) -> P' = g None -> moved s s' c P P' (Eof c pt)
  | mv_close pt : next P = DoClose pt P' -> open s pt -> moved s s' c P P' (Closes c pt).
  Lemma step_view : forall s lab s', step s lab s' -> forall c P, at_ s c P -> exists P', at_ s' c P' /\ moved s s' c P P' lab.
  Proof.
    intros s lab s' H c P A. destruct H as [ps cl i j p v k g P0 Q bs bs' IJ AI AJ NP IP NQ IQ OP|ps cl j p g Q bs AJ NQ IQ CL|ps cl i p k P0 AI NP OP]; unfold at_ in *; cbn [procs] in *.
    - destruct (Nat.eq_dec c j) as [->|CJ].
      + exists (g (Some v)). assert (P = Q) by congruence. subst Q. split.
        * eapply nth_upd_same. rewrite nth_upd_other by exact IJ. exact AJ.
        * eapply mv_recv; [exact IJ|eexists; split; eassumption|exact OP|reflexivity|exact AI|eexists; split; eassumption].
      + destruct (Nat.eq_dec c i) as [->|CI].
        * exists k. assert (P = P0) by congruence. subst P0. split; [rewrite nth_upd_other by auto; eapply nth_upd_same; exact AI|].
          eapply mv_send; [exact IJ|eexists; split; eassumption|exact OP|exact AJ|eexists; split; eassumption].
        * exists P. split; [rewrite !nth_upd_other by auto; exact A|]. apply mv_still; [split; auto|reflexivity].
    - destruct (Nat.eq_dec c j) as [->|CJ].
      + exists (g None). assert (P = Q) by congruence. subst Q. split; [eapply nth_upd_same; exact AJ|]. eapply mv_eof; [eexists; split; eassumption|exact CL|reflexivity].
      + exists P. split; [rewrite nth_upd_other by auto; exact A|]. apply mv_still; [exact CJ|reflexivity].
    - destruct (Nat.eq_dec c i) as [->|CI].
      + exists k. assert (P = P0) by congruence. subst P0. split; [eapply nth_upd_same; exact AI|]. eapply mv_close; assumption.
      + exists P. split; [rewrite nth_upd_other by auto; exact A|]. apply mv_still; [exact CI|reflexivity].
  Qed.
  Lemma step_closed : forall s lab s', step s lab s' -> closed s' = match lab with Closes _ p => p :: closed s | _ => closed s end.
  Proof. intros s lab s' []; reflexivity. Qed.
  Lemma step_length : forall s lab s', step s lab s' -> length (procs s') = length (procs s).
  Proof. intros s lab s' []; cbn; rewrite ?length_upd; reflexivity. Qed.
  Lemma step_back : forall s lab s', step s lab s' -> forall c P', at_ s' c P' -> exists P, at_ s c P /\ moved s s' c P P' lab.
  Proof.
    intros s lab s' H c P' A. destruct (nth_error (procs s) c) as [P|] eqn:E.
    - destruct (step_view _ _ _ H c P E) as (P'' & A' & M). exists P. rewrite (at_fun _ _ _ _ A A'). auto.
    - exfalso. apply nth_error_None in E. rewrite <- (step_length _ _ _ H) in E. apply nth_error_None in E. unfold at_ in A. congruence.
  Qed.

  (* ---------- resources ---------- *)
  Definition lchan (l : left V) : list nat := match l with LChan l => [l] | LVal _ => [] end.
  Definition own (P : proc) : option nat :=
    match P with
    | PEnd | PCrash | PMain _ _ _ => None
    | PClose c | PSend c _ | POnce c _ | PRepeat c _ _ | PLines c _ | PApply c _ _ _ _ _ | PScope c _ _ _ | PRho c _ _ _ | PCells c _ _ _ | PCopy c _ _ => Some c
    end.
  Definition due (st : mstate V) (ops : list (op V)) : nat :=
    match st with MClose _ _ | MReduce _ _ _ | MScan _ _ _ => 1 | _ => 0 end + closes ops.
  Definition ctls (P : proc) : list nat :=
    match P with
    | PApply _ r l _ _ st => match st with ALoop | AGot _ | ASend _ | ACloseR true => r :: lchan l | AError | ACloseR false => [r] | ACloseL => lchan l end
    | PScope _ r _ _ | PCopy _ r _ | PRho _ r _ _ | PCells _ r _ _ => [r]
    | PMain st ops _ => match due st ops with 0 => [] | _ => [1] end
    | _ => []
    end.
  Definition datas (P : proc) : list nat :=
    match P with
    | PApply _ r l _ _ st => match st with ALoop | AGot _ | ASend _ => r :: lchan l | _ => [] end
    | PScope _ r _ st | PCopy _ r st => match st with SCloseR => [] | _ => [r] end
    | PRho _ r _ _ => [r]
    | PCells _ r _ _ => [r]
    | PMain _ _ _ => [1]
    | _ => []
    end.
  Definition wfm (st : mstate V) : Prop :=
    match st with
    | MIdle => True
    | MTake c | MShow c | MClose c _ | MDrain c _ => c = 1
    | MTakeN c shape got => c = 1 /\ length got < chunk_size shape
    | MReduce f c _ => c = 1 /\ no_panic f
    | MScan f c acc => c = 1 /\ no_panic f
    | MSend _ _ => False
    end.
  Definition wfp (P : proc) : Prop :=
    match P with
    | PEnd | PClose _ | PLines _ _ => True
    | PSend _ vs => vs <> []
    | PRepeat _ _ n => exists m, n = Some m /\ 1 <= m
    | PCrash | POnce _ _ | PCopy _ _ _ => False
    | PApply _ r l f _ st => no_panic f /\ ~ In r (lchan l) /\ match st with AGot _ | ACloseL => lchan l <> [] | _ => True end
    | PScope _ _ _ _ => True
    | PRho _ _ shape st => match st with RLoop acc => length acc < chunk_size shape | RSend acc _ => length acc = chunk_size shape /\ 0 < chunk_size shape | _ => False end
    | PCells _ _ sc st => steady sc /\ match st with CLoop _ | CSend _ _ _ _ => True | _ => False end
    | PMain st ops _ => wfm st /\ Forall (use_of 1) ops /\ due st ops <= 1 /\ (st = MIdle -> ops = [])
    end.
  Section Fixed.
  (* who reads a channel; which channels are never closed early *)
  Context (reader : nat -> nat) (K : nat -> Prop).
  Definition keeps (P : proc) (r : nat) : Prop :=
    match P with
    | PApply _ r0 _ f _ st => r = r0 /\ never_fails f /\ match st with ALoop | AGot _ | ASend _ => True | _ => False end
    | PScope _ _ _ st => match st with SCloseR => False | _ => True end
    | PRho _ _ _ _ => True
    | PCells _ _ _ _ => True
    | _ => False
    end.
  Record good (i : nat) (P : proc) : Prop := mkGood {
    g_wf : wfp P;
    g_own : forall c, own P = Some c -> c = i;
    g_ctl : forall r, In r (ctls P) -> reader r = i;
    g_data : forall r, In r (datas P) -> reader r = i;
    g_rho : (exists c r sh st, P = PRho c r sh st) \/ (exists c r sc st, P = PCells c r sc st) -> K i;
    g_keep : forall r, In r (ctls P) -> K r -> K i /\ keeps P r }.
  Record fine (s : sys) : Prop := mkFine {
    f_good : forall i P, at_ s i P -> good i P;
    f_own : forall i P c, at_ s i P -> own P = Some c -> open s (Data c);
    f_ctl : forall i P r, at_ s i P -> In r (ctls P) -> open s (Ctl r);
    f_k : forall c, K c -> open s (Ctl c);
    f_eof : forall i c r sc v vs got, at_ s i (PCells c r sc (CSend v vs got true)) -> In (Data r) (closed s) }.

  Lemma send_own : forall i P p v k, good i P -> can_send P p v k -> p = Data i /\ own P = Some i.
  Proof.
    intros i P p v k G (bs & E & I). pose proof (g_own _ _ G) as GO. pose proof (g_wf _ _ G) as W.
    assert (X : own P = own P) by reflexivity.
    destruct P as [| |c|c vs|c v0|c v0 n|c ls|c r l f filt st|c r out st|c r sh st|c r sc st|l r st|st ops log]; cbn in E, W, GO; try discriminate; try contradiction.
    - destruct vs; try discriminate. injection E as <-. destruct I as [I|[I|[]]]; try discriminate. injection I as <- _ _. rewrite (GO c eq_refl). auto.
    - injection E as <-. destruct I as [I|[I|[]]]; try discriminate. injection I as <- _ _. rewrite (GO c eq_refl). auto.
    - destruct ls; try discriminate. injection E as <-. destruct I as [I|[I|[]]]; try discriminate. injection I as <- _ _. rewrite (GO c eq_refl). auto.
    - destruct st; try discriminate; try (destruct l; discriminate).
      + injection E as <-. destruct I as [I|[I|[]]]; try discriminate.
      + destruct l; try discriminate. injection E as <-. destruct I as [I|[]]; discriminate.
      + injection E as <-. destruct I as [I|[]]. injection I as <- _ _. rewrite (GO c eq_refl). auto.
      + injection E as <-. destruct I as [I|[]]. injection I as <- _ _. rewrite (GO c eq_refl). auto.
    - destruct st; try discriminate; injection E as <-; destruct I as [I|[I|[]]]; try discriminate. injection I as <- _ _. rewrite (GO c eq_refl). auto.
    - destruct st; try discriminate; injection E as <-; destruct I as [I|[I|[]]]; try discriminate. injection I as <- _ _. rewrite (GO c eq_refl). auto.
    - destruct W as [ST W]; destruct st; try discriminate; try contradiction; injection E as <-; destruct I as [I|[I|[]]]; try discriminate. injection I as <- _ _. rewrite (GO c eq_refl). auto.
    - destruct st; try discriminate; try (injection E as <-; destruct I as [I|[]]; discriminate). destruct W as [[] _].
  Qed.
  Lemma recv_port : forall i P p g, good i P -> can_recv P p g -> (p = Ctl i /\ own P = Some i) \/ (exists r, p = Data r /\ In r (datas P)) \/ (exists r, p = Ctl r /\ In r (ctls P)).
  Proof.
    intros i P p g G (bs & E & I). pose proof (g_own _ _ G) as GO. pose proof (g_wf _ _ G) as W.
    destruct P as [| |c|c vs|c v0|c v0 n|c ls|c r l f filt st|c r out st|c r sh st|c r sc st|l r st|st ops log]; cbn in E, W, GO; try discriminate; try contradiction.
    - destruct vs; try discriminate. injection E as <-. destruct I as [I|[I|[]]]; try discriminate. injection I as <- _. rewrite (GO c eq_refl). auto.
    - injection E as <-. destruct I as [I|[I|[]]]; try discriminate. injection I as <- _. rewrite (GO c eq_refl). auto.
    - destruct ls; try discriminate. injection E as <-. destruct I as [I|[I|[]]]; try discriminate. injection I as <- _. rewrite (GO c eq_refl). auto.
    - destruct st; try discriminate; try (destruct l; discriminate).
      + injection E as <-. destruct I as [I|[I|[]]]; injection I as <- _; [rewrite (GO c eq_refl); auto|right; left; exists r; cbn; auto].
      + destruct l; try discriminate. injection E as <-. destruct I as [I|[]]; injection I as <- _. right. left. eexists. split; [reflexivity|]. cbn. auto.
      + injection E as <-. destruct I as [I|[]]. discriminate.
      + injection E as <-. destruct I as [I|[]]. discriminate.
    - destruct st; try discriminate; injection E as <-; destruct I as [I|[I|[]]]; try discriminate; injection I as <- _; try (rewrite (GO c eq_refl); auto); right; left; exists r; cbn; auto.
    - destruct st; try discriminate; injection E as <-; destruct I as [I|[I|[]]]; try discriminate; injection I as <- _; try (rewrite (GO c eq_refl); auto); right; left; exists r; cbn; auto.
    - destruct W as [ST W]; destruct st; try discriminate; try contradiction; injection E as <-; destruct I as [I|[I|[]]]; try discriminate; injection I as <- _; [rewrite (GO c eq_refl); auto|right; left; exists r; cbn; auto|right; right; exists r; cbn; auto].
    - destruct W as (W & _). destruct st; try discriminate; injection E as <-; destruct I as [I|[]]; try discriminate; injection I as <- _; right; left; cbn in W |- *;
        first [contradiction|exists c; split; [reflexivity|left; symmetry; tauto]].
  Qed.
  Lemma close_port : forall i P p k, good i P -> next P = DoClose p k ->
    (p = Data i /\ own P = Some i /\ k = PEnd) \/ (exists r, p = Ctl r /\ In r (ctls P) /\ ~ K r).
  Proof.
    intros i P p k G E. pose proof (g_own _ _ G) as GO. pose proof (g_wf _ _ G) as W. pose proof (g_keep _ _ G) as GK.
    destruct P as [| |c|c vs|c v0|c v0 n|c ls|c r l f filt st|c r out st|c r sh st|c r sc st|l r st|st ops log]; cbn in E, W, GO, GK; try discriminate; try contradiction.
    - injection E as <- <-. rewrite (GO c eq_refl). auto.
    - destruct vs; discriminate.
    - destruct ls; try discriminate. injection E as <- <-. rewrite (GO c eq_refl). auto.
    - destruct st; try discriminate.
      + destruct l; discriminate.
      + injection E as <- _. right. exists r. split; [reflexivity|]. split; [destruct then_l; cbn; auto|]. intros Q. destruct (GK r) as (_ & _ & _ & X); auto. destruct then_l; cbn; auto.
      + destruct l; try discriminate. injection E as <- _. right. eexists. split; [reflexivity|]. split; [cbn; auto|]. intros Q. destruct (GK l) as (_ & _ & _ & X); cbn; auto.
    - destruct st; try discriminate. injection E as <- _. right. exists r. split; [reflexivity|]. split; [cbn; auto|]. intros Q. destruct (GK r) as (_ & X); cbn; auto.
    - destruct st; try discriminate; contradiction.
    - destruct W as [ST W]; destruct st; try discriminate; contradiction.
    - destruct st; try discriminate. injection E as <- _. right. cbn in W. destruct W as (-> & _). exists 1. split; [reflexivity|]. split; [cbn; auto|].
      intros Q. destruct (GK 1) as (_ & X); auto. cbn. auto.
  Qed.
  Lemma no_crash : forall i P, good i P -> next P <> Crash.
  Proof.
    intros i P G E. pose proof (g_wf _ _ G) as W.
    destruct P as [| |c|c vs|c v0|c v0 n|c ls|c r l f filt st|c r out st|c r sh st|c r sc st|l r st|st ops log]; cbn in E, W; try discriminate; try contradiction;
      try (destruct vs; discriminate); try (destruct ls; discriminate); destruct st; try discriminate; destruct l; discriminate.
  Qed.
  (* ---------- goroutines keep within their resources ---------- *)
  Definition is_rho (P : proc) : Prop := (exists c r sh st, P = PRho c r sh st) \/ exists c r sc st, P = PCells c r sc st.
  Record evolves (i : nat) (P k : proc) : Prop := mkEvolves {
    e_good : good i k;
    e_own : forall c, own k = Some c -> own P = Some c;
    e_ctls : incl (ctls k) (ctls P);
    e_datas : incl (datas k) (datas P) }.
  Lemma evolves_refl : forall i P, good i P -> evolves i P P.
  Proof. intros i P G. split; auto using incl_refl. Qed.
  Lemma good_shrink : forall i P k, good i P -> wfp k -> (forall c, own k = Some c -> own P = Some c) -> incl (ctls k) (ctls P) -> incl (datas k) (datas P) ->
    (is_rho k -> is_rho P) -> (forall r, In r (ctls k) -> K i -> keeps P r -> keeps k r) -> evolves i P k.
  Proof.
    intros i P k [W O C D R KP] W' O' C' D' R' K'. split; auto. split; auto; [exact (fun H => R (R' H))|]. intros r I Q. destruct (KP r (C' r I) Q) as [X Y]. auto.
  Qed.
  Lemma due_next : forall ops log, Forall (use_of 1) ops -> closes ops <= 1 -> wfp (main_next ops log) /\ ctls (main_next ops log) = match closes ops with 0 => [] | _ => [1] end /\
    own (main_next ops log) = None /\ datas (main_next ops log) = [1].
  Proof.
    intros ops log F L. destruct ops as [|o ops]; [cbn; repeat split; auto|]. inversion F as [|? ? U F']; subst. unfold closes in *.
    destruct o; cbn in U, L |- *; try contradiction; first [subst c|destruct U as [-> U]]; repeat split; auto; try discriminate; unfold due, closes; lia.
  Qed.
  Lemma main_shrink : forall i st ops log log', good i (PMain st ops log) -> evolves i (PMain st ops log) (main_next ops log').
  Proof.
    intros i st ops log log' G. destruct (g_wf _ _ G) as (W & F & L & _). unfold due in L.
    destruct (due_next ops log' F) as (W' & C & O & D); [lia|]. apply good_shrink; [exact G|exact W'| | | | |].
    - intros c X. congruence.
    - rewrite C. cbn [ctls]. unfold due. destruct (closes ops); [apply incl_nil_l|]. destruct st; cbn; apply incl_refl.
    - rewrite D. apply incl_refl.
    - intros [(c & r & sh & st' & X)|(c & r & sh & st' & X)]; destruct ops as [|[] ?]; discriminate.
    - intros r I Q X. destruct X.
  Qed.
  Lemma main_good : forall i st st' ops log log', good i (PMain st ops log) -> wfm st' -> st' <> MIdle -> due st' ops <= due st ops -> evolves i (PMain st ops log) (PMain st' ops log').
  Proof.
    intros i st st' ops log log' G W' NI L. destruct (g_wf _ _ G) as (W & F & L' & _). apply good_shrink; [exact G| | | | | |].
    - repeat split; auto; [lia|congruence].
    - cbn. auto.
    - cbn [ctls]. destruct (due st' ops); [apply incl_nil_l|]. destruct (due st ops); [lia|apply incl_refl].
    - apply incl_refl.
    - intros [(? & ? & ? & ? & X)|(? & ? & ? & ? & X)]; discriminate.
    - intros r _ _ [].
  Qed.
  Lemma apply_good : forall i c r l f filt st lv v, good i (PApply c r l f filt st) -> match st with ALoop => lchan l = [] | AGot _ => True | _ => False end ->
    evolves i (PApply c r l f filt st) (apply_call c r l f filt lv v).
  Proof.
    intros i c r l f filt st lv v G S. destruct (g_wf _ _ G) as (NP & NR & X). unfold M_Chan.apply_call.
    destruct (f lv v) as [w| |] eqn:E; [| |exfalso; eapply NP; exact E].
    - destruct st; try contradiction; destruct (filt && isEmpty w); (eapply good_shrink; [exact G|cbn; auto|cbn; auto|cbn; apply incl_refl|cbn; apply incl_refl|intros [(? & ? & ? & ? & Q)|(? & ? & ? & ? & Q)]; discriminate|cbn; tauto]).
    - eapply good_shrink; [exact G|cbn; auto|cbn; auto| |cbn; intros x []|intros [(? & ? & ? & ? & Q)|(? & ? & ? & ? & Q)]; discriminate|].
      + destruct st; try contradiction; cbn; intros x [->|[]]; left; reflexivity.
      + intros r0 _ _ (_ & NF & _). exfalso. eapply NF. exact E.
  Qed.
  Lemma push_good : forall es i c r sh st acc, good i (PRho c r sh st) -> length acc < chunk_size sh -> evolves i (PRho c r sh st) (rho_push c r sh acc es).
  Proof.
    induction es as [|e es IH]; intros i c r sh st acc G L; cbn [rho_push].
    - eapply good_shrink; [exact G|exact L|cbn; auto|cbn; apply incl_refl|cbn; apply incl_refl| |cbn; auto]. intros _. left. exists c, r, sh, st. reflexivity.
    - destruct (chunk_size sh <=? length acc) eqn:Q; [apply Nat.leb_le in Q; lia|].
      destruct (length (acc ++ [e]) =? chunk_size sh) eqn:Q2.
      + apply Nat.eqb_eq in Q2. eapply good_shrink; [exact G|cbn; split; [exact Q2|lia]|cbn; auto|cbn; apply incl_refl|cbn; apply incl_refl| |cbn; auto]. intros _. left. exists c, r, sh, st. reflexivity.
      + apply Nat.eqb_neq in Q2. apply (IH i c r sh st); [exact G|]. rewrite app_length in *. cbn in *. lia.
  Qed.
  Lemma cells_good : forall i c r sc st got eof vs, good i (PCells c r sc st) -> evolves i (PCells c r sc st) (cells_push c r sc got eof vs).
  Proof.
    intros i c r sc st got eof vs G. destruct (g_wf _ _ G) as [ST _]. unfold cells_push.
    destruct vs as [|v vs]; [destruct eof|]; (eapply good_shrink; [exact G|cbn; auto|cbn; auto|cbn; auto using incl_refl, incl_nil_l|cbn; auto using incl_refl, incl_nil_l|try (intros [(? & ? & ? & ? & Q)|(? & ? & ? & ? & Q)]; discriminate); intros _; right; exists c, r, sc, st; reflexivity|cbn; auto; tauto]).
  Qed.
  Ltac shrink := first [apply evolves_refl; eassumption | eapply good_shrink; [eassumption|cbn; auto|cbn; auto; congruence|cbn; auto using incl_refl, incl_nil_l|cbn; auto using incl_refl, incl_nil_l|let X := fresh in intros [(? & ? & ? & ? & X)|(? & ? & ? & ? & X)]; discriminate X|cbn; tauto]].
  Lemma good_send : forall i P p v k, good i P -> can_send P p v k -> evolves i P k.
  Proof.
    intros i P p v k G (bs & E & I). pose proof (g_wf _ _ G) as W.
    destruct P as [| |c|c vs|c v0|c v0 n|c ls|c r l f filt st|c r out st|c r sh st|c r sc st|l r st|st ops log]; cbn in E, W; try discriminate; try contradiction.
    - destruct vs as [|u vs]; try discriminate. injection E as <-. destruct I as [I|[I|[]]]; try discriminate. injection I as _ _ <-. unfold sendall. destruct vs; [shrink|].
      eapply good_shrink; [eassumption|cbn; congruence|cbn; auto|cbn; apply incl_refl|cbn; apply incl_refl|intros [(? & ? & ? & ? & Q)|(? & ? & ? & ? & Q)]; discriminate|cbn; tauto].
    - injection E as <-. destruct I as [I|[I|[]]]; try discriminate. injection I as _ _ <-. destruct W as (m & -> & M). destruct (m <=? 1) eqn:Q; [shrink|].
      apply Nat.leb_gt in Q. eapply good_shrink; [eassumption|cbn; exists (m - 1); split; [reflexivity|lia]|cbn; auto|cbn; apply incl_refl|cbn; apply incl_refl|intros [(? & ? & ? & ? & X)|(? & ? & ? & ? & X)]; discriminate|cbn; tauto].
    - destruct ls; try discriminate. injection E as <-. destruct I as [I|[I|[]]]; try discriminate. injection I as _ _ <-. shrink.
    - destruct W as (W1 & W2 & W3). destruct st; try discriminate; try (destruct l; discriminate).
      + injection E as <-. destruct I as [I|[I|[]]]; try discriminate.
      + destruct l; try discriminate. injection E as <-. destruct I as [I|[]]; discriminate.
      + injection E as <-. destruct I as [I|[]]. injection I as _ _ <-. shrink.
      + injection E as <-. destruct I as [I|[]]. injection I as _ _ <-. shrink.
    - destruct st; try discriminate; injection E as <-; destruct I as [I|[I|[]]]; try discriminate. injection I as _ _ <-. shrink.
    - destruct st; try discriminate; injection E as <-; destruct I as [I|[I|[]]]; try discriminate. injection I as _ _ <-. eapply push_good; [exact G|cbn; lia].
    - destruct W as [ST W]; destruct st; try discriminate; try contradiction; injection E as <-; destruct I as [I|[I|[]]]; try discriminate. injection I as _ _ <-. apply cells_good; exact G.
    - destruct st; try discriminate; try (injection E as <-; destruct I as [I|[]]; discriminate). destruct W as [[] _].
  Qed.
  Lemma good_recv : forall i P p g o, good i P -> can_recv P p g -> (p = Ctl i -> o = None /\ ~ K i) -> evolves i P (g o).
  Proof.
    intros i P p g o G (bs & E & I) CT. pose proof (g_wf _ _ G) as W. pose proof (g_own _ _ G) as GO.
    destruct P as [| |c|c vs|c v0|c v0 n|c ls|c r l f filt st|c r out st|c r sh st|c r sc st|l r st|st ops log]; cbn in E, W, GO; try discriminate; try contradiction.
    - destruct vs as [|u vs]; try discriminate. injection E as <-. destruct I as [I|[I|[]]]; try discriminate. injection I as _ <-. destruct o; shrink.
    - injection E as <-. destruct I as [I|[I|[]]]; try discriminate. injection I as _ <-. destruct o; shrink.
    - destruct ls; try discriminate. injection E as <-. destruct I as [I|[I|[]]]; try discriminate. injection I as _ <-. shrink.
    - destruct W as (W1 & W2 & W3). destruct st; try discriminate; try (destruct l; discriminate).
      + injection E as <-. destruct I as [I|[I|[]]]; injection I as <- <-.
        * destruct CT as [-> NK]; [rewrite (GO c eq_refl); reflexivity|]. eapply good_shrink; [eassumption|cbn; auto|cbn; auto|cbn; apply incl_refl|cbn; apply incl_nil_l|intros [(? & ? & ? & ? & Q)|(? & ? & ? & ? & Q)]; discriminate|]. intros r0 _ Q. contradiction.
        * destruct o as [v|].
          -- destruct l as [lv|l]; [apply (apply_good i c r (LVal lv) f filt ALoop); [exact G|reflexivity]|].
             eapply good_shrink; [eassumption|cbn; repeat split; auto; discriminate|cbn; auto|cbn; apply incl_refl|cbn; apply incl_refl|intros [(? & ? & ? & ? & Q)|(? & ? & ? & ? & Q)]; discriminate|cbn; tauto].
          -- destruct l as [lv|l]; [shrink|].
             eapply good_shrink; [eassumption|cbn; repeat split; auto; discriminate|cbn; auto|cbn; apply incl_tl, incl_refl|cbn; apply incl_nil_l|intros [(? & ? & ? & ? & Q)|(? & ? & ? & ? & Q)]; discriminate|].
             intros r0 I0 _ (X & _). cbn in I0. destruct I0 as [->|[]]. exfalso. apply W2. cbn. auto.
      + destruct l; try discriminate. injection E as <-. destruct I as [I|[]]; injection I as _ <-. apply (apply_good i c r (LChan l) f filt (AGot v)); [exact G|exact Logic.I].
      + injection E as <-. destruct I as [I|[]]. discriminate.
      + injection E as <-. destruct I as [I|[]]. discriminate.
    - destruct st; try discriminate; injection E as <-; destruct I as [I|[I|[]]]; try discriminate; injection I as <- <-.
      + destruct CT as [-> NK]; [rewrite (GO c eq_refl); reflexivity|]. eapply good_shrink; [eassumption|cbn; auto|cbn; auto|cbn; apply incl_refl|cbn; apply incl_nil_l|intros [(? & ? & ? & ? & Q)|(? & ? & ? & ? & Q)]; discriminate|]. intros r0 _ Q. contradiction.
      + destruct o; shrink.
      + destruct CT as [-> NK]; [rewrite (GO c eq_refl); reflexivity|]. eapply good_shrink; [eassumption|cbn; auto|cbn; auto|cbn; apply incl_refl|cbn; apply incl_nil_l|intros [(? & ? & ? & ? & Q)|(? & ? & ? & ? & Q)]; discriminate|]. intros r0 _ Q. contradiction.
    - assert (KI : K i) by (apply (g_rho _ _ G); left; exists c, r, sh, st; reflexivity).
      destruct st; try discriminate; try contradiction; injection E as <-; destruct I as [I|[I|[]]]; try discriminate; injection I as <- <-.
      + destruct CT as [-> NK]; [rewrite (GO c eq_refl); reflexivity|contradiction].
      + destruct o; [eapply push_good; [exact G|exact W]|shrink].
      + destruct CT as [-> NK]; [rewrite (GO c eq_refl); reflexivity|contradiction].
    - assert (KI : K i) by (apply (g_rho _ _ G); right; exists c, r, sc, st; reflexivity).
      destruct W as [ST W]; destruct st; try discriminate; try contradiction; injection E as <-; destruct I as [I|[I|[]]]; try discriminate; injection I as <- <-.
      + destruct CT as [-> NK]; [rewrite (GO c eq_refl); reflexivity|contradiction].
      + unfold cells_more, cells_finish. destruct o; (apply cells_good; exact G).
      + destruct o; [apply cells_good; exact G|shrink].
    - destruct st; cbn in E; try discriminate; injection E as <-; destruct I as [I|[]]; try discriminate; injection I as _ <-; destruct W as (W & F & L & _).
      + eapply main_shrink; exact G.
      + destruct o; [|eapply main_shrink; exact G]. eapply main_good; [exact G|exact W|discriminate|apply le_n].
      + destruct o; [|eapply main_shrink; exact G]. cbn in W. destruct (_ =? _) eqn:Q; [eapply main_shrink; exact G|]. apply Nat.eqb_neq in Q.
        eapply main_good; [exact G|cbn; rewrite app_length in *; cbn in *; lia|discriminate|apply le_n].
      + destruct o; [apply evolves_refl; exact G|eapply main_shrink; exact G].
      + destruct W as [-> W]. destruct o as [v|]; [destruct acc as [a|]; [destruct (f (Some a) v) eqn:Q|]|]; try (eapply main_good; [exact G|cbn; auto|discriminate|apply le_n]). eapply main_shrink; exact G.
      + destruct W as [-> W]. destruct o as [v|]; [destruct (rev acc) as [|a ?]; [|destruct (f (Some a) v) eqn:Q]|]; try (eapply main_good; [exact G|cbn; auto|discriminate|apply le_n]). eapply main_shrink; exact G.
  Qed.
  Lemma good_close : forall i P p k, good i P -> next P = DoClose p k -> evolves i P k /\ (forall r, p = Ctl r -> ~ In r (ctls k)).
  Proof.
    intros i P p k G E. pose proof (g_wf _ _ G) as W. pose proof (g_keep _ _ G) as GK.
    destruct P as [| |c|c vs|c v0|c v0 n|c ls|c r l f filt st|c r out st|c r sh st|c r sc st|l r st|st ops log]; cbn in E, W, GK; try discriminate; try contradiction.
    - injection E as <- <-. split; [shrink|discriminate].
    - destruct vs; discriminate.
    - destruct ls; try discriminate. injection E as <- <-. split; [shrink|discriminate].
    - destruct W as (W1 & W2 & W3). destruct st; try discriminate.
      + destruct l; discriminate.
      + injection E as <- <-. destruct l as [lv|l]; [destruct then_l; split; [shrink|intros r0 _ []|shrink|intros r0 _ []]|]. destruct then_l.
        * split; [|intros r0 Q; injection Q as <-; exact W2].
          eapply good_shrink; [eassumption|cbn; repeat split; auto; discriminate|cbn; auto|cbn; apply incl_tl, incl_refl|cbn; apply incl_nil_l|intros [(? & ? & ? & ? & Q)|(? & ? & ? & ? & Q)]; discriminate|].
          intros r0 _ _ (_ & _ & []).
        * split; [shrink|intros r0 _ []].
      + destruct l; try discriminate. injection E as <- <-. split; [shrink|intros r0 _ []].
    - destruct st; try discriminate. injection E as <- <-. split; [shrink|intros r0 _ []].
    - destruct st; try discriminate; contradiction.
    - destruct W as [ST W]; destruct st; try discriminate; contradiction.
    - destruct st; try discriminate. injection E as <- <-. destruct W as (W & F & L & _). unfold due in L. split.
      + eapply main_good; [exact G|exact W|discriminate|unfold due; lia].
      + intros r0 _. cbn [ctls]. unfold due. destruct (closes ops); [intros []|lia].
  Qed.

  (* ---------- no goroutine panics ---------- *)
  Lemma moved_evolves : forall s lab s' i P P', fine s -> at_ s i P -> moved s s' i P P' lab ->
    evolves i P P' /\ (forall c, own P' = Some c -> lab <> Closes i (Data c)) /\ (forall r, lab = Closes i (Ctl r) -> ~ In r (ctls P')).
  Proof.
    intros s lab s' i P P' F A M. pose proof (f_good _ F i P A) as G.
    destruct M as [lab ST ->|j pt v Q g NE CS OP AQ CR|i0 pt v g Q k NE CR OP -> AQ CS|pt g CR IC ->|pt E OP].
    - split; [apply evolves_refl, G|]. split; [intros c _|intros r]; intros ->; exfalso; apply ST; reflexivity.
    - split; [eapply good_send; eassumption|]. split; discriminate.
    - split; [|split; discriminate]. eapply good_recv; [exact G|exact CR|]. intros ->. exfalso. destruct (send_own i0 Q _ _ _ (f_good _ F i0 Q AQ) CS) as [X _]. discriminate.
    - split; [|split; discriminate]. eapply good_recv; [exact G|exact CR|]. intros ->. split; [reflexivity|]. intros KI. apply (f_k _ F i KI). exact IC.
    - destruct (good_close i P pt P' G E) as [EV NI]. split; [exact EV|]. split.
      + intros c O Q. injection Q as ->. destruct (close_port i P _ _ G E) as [(_ & _ & ->)|(r & X & _)]; discriminate.
      + intros r Q. injection Q as ->. apply NI. reflexivity.
  Qed.
  Lemma closes_by : forall s lab s' i p, fine s -> step s lab s' -> lab = Closes i p ->
    exists P, at_ s i P /\ ((p = Data i /\ own P = Some i) \/ (exists r, p = Ctl r /\ In r (ctls P) /\ ~ K r /\ reader r = i)).
  Proof.
    intros s lab s' i p F H ->. inversion H as [| |ps cl i0 p0 k P A N O]; subst. exists P. split; [exact A|].
    pose proof (f_good _ F i P A) as G. destruct (close_port i P p k G N) as [(-> & O' & _)|(r & -> & I & NK)]; [auto|]. right. exists r. repeat split; auto. apply (g_ctl _ _ G r I).
  Qed.
  Lemma fine_step : forall s lab s', fine s -> step s lab s' -> fine s'.
  Proof.
    intros s lab s' F H. pose proof (step_closed _ _ _ H) as CL. split.
    - intros i P' A'. destruct (step_back _ _ _ H i P' A') as (P & A & M). apply (moved_evolves _ _ _ _ _ _ F A M).
    - intros i P' c A' O'. destruct (step_back _ _ _ H i P' A') as (P & A & M). destruct (moved_evolves _ _ _ _ _ _ F A M) as (EV & NO & _).
      pose proof (e_own _ _ _ EV c O') as O. pose proof (f_own _ F i P c A O) as OP. pose proof (g_own _ _ (f_good _ F i P A) c O) as ->.
      unfold open. rewrite CL. destruct lab as [| |i0 p]; try exact OP. intros [->|X]; [|exact (OP X)].
      destruct (closes_by _ _ _ i0 _ F H eq_refl) as (P0 & A0 & [(Q & O0)|(r & Q & _)]); [|discriminate]. injection Q as ->. apply (NO i0 O'). reflexivity.
    - intros i P' r A' I'. destruct (step_back _ _ _ H i P' A') as (P & A & M). destruct (moved_evolves _ _ _ _ _ _ F A M) as (EV & _ & NI).
      pose proof (e_ctls _ _ _ EV r I') as I. pose proof (f_ctl _ F i P r A I) as OP. pose proof (g_ctl _ _ (f_good _ F i P A) r I) as R.
      unfold open. rewrite CL. destruct lab as [| |i0 p]; try exact OP. intros [->|X]; [|exact (OP X)].
      destruct (closes_by _ _ _ i0 _ F H eq_refl) as (P0 & A0 & [(Q & _)|(r0 & Q & _ & _ & R0)]); [discriminate|]. injection Q as <-. rewrite R in R0. subst i0. apply (NI r eq_refl I').
    - intros c KC. pose proof (f_k _ F c KC) as OP. unfold open. rewrite CL. destruct lab as [| |i0 p]; try exact OP. intros [->|X]; [|exact (OP X)].
      destruct (closes_by _ _ _ i0 _ F H eq_refl) as (P0 & A0 & [(Q & _)|(r0 & Q & _ & NK & _)]); [discriminate|]. injection Q as <-. contradiction.
    - intros i c r sc v vs got A'. assert (KP : forall p, In p (closed s) -> In p (closed s')) by (intros p I; rewrite CL; destruct lab; auto; right; exact I).
      destruct (step_back _ _ _ H i _ A') as (P & A & M). apply KP. pose proof (f_good _ F i P A) as G.
      assert (X : (exists v' vs', P = PCells c r sc (CSend v' vs' got true)) \/ ((exists pt g, can_recv P pt g /\ pt = Data r /\ In pt (closed s)))).
      { destruct M as [lab S E|j pt w Q g NE (bs & N & I) OP AQ CRV|i0 pt w g Q k NE (bs & N & I) OP E AQ CS|pt g (bs & N & I) IC E|pt N OP].
        - left. exists v, vs. auto.
        - pose proof (g_wf _ _ G) as W. destruct P as [| |c0|c0 vs0|c0 v0|c0 v0 n|c0 ls|c0 r0 l f filt st|c0 r0 out st|c0 r0 sh st|c0 r0 sc0 st|l r0 st|st ops log]; cbn in N, W; try discriminate; try contradiction.
          + destruct vs0 as [|u vs0]; try discriminate. injection N as <-. destruct I as [I|[I|[]]]; try discriminate. injection I as _ _ I. unfold sendall in I. destruct vs0; discriminate.
          + injection N as <-. destruct I as [I|[I|[]]]; try discriminate. injection I as _ _ I. destruct W as (m & -> & _). destruct (m <=? 1); discriminate.
          + destruct ls; try discriminate. injection N as <-. destruct I as [I|[I|[]]]; discriminate.
          + destruct st; try discriminate; try (destruct l; discriminate); try (injection N as <-; destruct I as [I|[I|[]]]; discriminate); try (injection N as <-; destruct I as [I|[]]; discriminate).
            destruct l; try discriminate. injection N as <-. destruct I as [I|[]]; discriminate.
          + destruct st; try discriminate; injection N as <-; destruct I as [I|[I|[]]]; discriminate.
          + destruct st; try discriminate; injection N as <-; destruct I as [I|[I|[]]]; try discriminate. injection I as _ _ I.
            pose proof (push_good es i c0 r0 sh _ [] G ltac:(cbn; lia)) as EV. rewrite I in EV. exfalso. clear - I. revert I. generalize (@nil V) at 1. induction es as [|e es IH]; intros a I; cbn in I; [discriminate|]. destruct (_ <=? _); [discriminate|]. destruct (_ =? _); [discriminate|]. eapply IH. exact I.
          + destruct W as [ST W]; destruct st as [g0|v0 [|v1 vs0] g0 e0|g0| |]; try discriminate; try contradiction; injection N as <-; destruct I as [I|[I|[]]]; try discriminate; injection I as _ _ I; [cbn in I; destruct e0; discriminate|]. intros; subst; left; eauto.
          + destruct st; try discriminate; try (injection N as <-; destruct I as [I|[]]; discriminate). destruct W as [[] _].
        - pose proof (send_own i0 Q pt w k (f_good _ F i0 Q AQ) CS) as [-> _].
          pose proof (g_wf _ _ G) as W. destruct P as [| |c0|c0 vs0|c0 v0|c0 v0 n|c0 ls|c0 r0 l f filt st|c0 r0 out st|c0 r0 sh st|c0 r0 sc0 st|l r0 st|st ops log]; cbn in N, W; try discriminate; try contradiction.
          + destruct vs0 as [|u vs0]; try discriminate. injection N as <-. destruct I as [I|[I|[]]]; discriminate.
          + injection N as <-. destruct I as [I|[I|[]]]; discriminate.
          + destruct ls; try discriminate. injection N as <-. destruct I as [I|[I|[]]]; discriminate.
          + assert (AC : forall lv x, PCells c r sc (CSend v vs got true) <> apply_call c0 r0 l f filt lv x) by (intros lv x; unfold M_Chan.apply_call; destruct (f lv x); discriminate).
            destruct st; try discriminate; try (destruct l; discriminate); try (injection N as <-; destruct I as [I|[]]; discriminate).
            * injection N as <-. destruct I as [I|[I|[]]]; try discriminate. injection I as _ <-. destruct l; [exfalso; exact (AC _ _ E)|discriminate].
            * destruct l; try discriminate. injection N as <-. destruct I as [I|[]]. injection I as _ <-. exfalso; exact (AC _ _ E).
          + destruct st; try discriminate; injection N as <-; destruct I as [I|[I|[]]]; try discriminate. injection I as _ <-. discriminate.
          + destruct st; try discriminate; try contradiction; injection N as <-; destruct I as [I|[I|[]]]; try discriminate. injection I as _ <-.
            exfalso. clear - E. revert E. generalize acc. induction (ravel w) as [|e es IH]; intros a E; cbn in E; [discriminate|]. destruct (_ <=? _); [discriminate|]. destruct (_ =? _); [discriminate|]. eapply IH. exact E.
          + destruct W as [ST W]; destruct st; try discriminate; try contradiction; injection N as <-; destruct I as [I|[I|[]]]; try discriminate. injection I as _ <-. unfold cells_more, cells_push in E. destruct (skipn _ _); discriminate.
          + exfalso. destruct st; try discriminate; injection N as <-; destruct I as [I|[]]; try discriminate; injection I as _ <-;
            repeat match type of E with _ = match ?x with _ => _ end => destruct x | _ = (if ?x then _ else _) => destruct x end; try discriminate; destruct ops as [|[] ?]; discriminate.
        - pose proof (g_wf _ _ G) as W. destruct P as [| |c0|c0 vs0|c0 v0|c0 v0 n|c0 ls|c0 r0 l f filt st|c0 r0 out st|c0 r0 sh st|c0 r0 sc0 st|l r0 st|st ops log]; cbn in N, W; try discriminate; try contradiction.
          + destruct vs0 as [|u vs0]; try discriminate. injection N as <-. destruct I as [I|[I|[]]]; try discriminate. injection I as _ <-. discriminate.
          + injection N as <-. destruct I as [I|[I|[]]]; try discriminate. injection I as _ <-. discriminate.
          + destruct ls; try discriminate. injection N as <-. destruct I as [I|[I|[]]]; try discriminate. injection I as _ <-. discriminate.
          + assert (AC : forall lv x, PCells c r sc (CSend v vs got true) <> apply_call c0 r0 l f filt lv x) by (intros lv x; unfold M_Chan.apply_call; destruct (f lv x); discriminate).
            destruct st; try discriminate; try (destruct l; discriminate); try (injection N as <-; destruct I as [I|[]]; discriminate).
            * injection N as <-. destruct I as [I|[I|[]]]; injection I as _ <-; [discriminate|destruct l; discriminate].
            * destruct l; try discriminate. injection N as <-. destruct I as [I|[]]. injection I as _ <-. exfalso; exact (AC _ _ E).
          + destruct st; try discriminate; injection N as <-; destruct I as [I|[I|[]]]; try discriminate; injection I as _ <-; discriminate.
          + destruct st; try discriminate; try contradiction; injection N as <-; destruct I as [I|[I|[]]]; try discriminate; injection I as _ <-; discriminate.
          + destruct W as [ST W]; destruct st; try discriminate; try contradiction; injection N as <-; destruct I as [I|[I|[]]]; try discriminate; injection I as <- <-; try discriminate.
            right. exists (Data r). unfold cells_finish, cells_push in E. destruct (skipn _ _); [discriminate|]. injection E as -> -> -> -> -> ->.
            eexists. split; [eexists; split; [reflexivity|right; left; reflexivity]|]. split; [reflexivity|exact IC].
          + exfalso. destruct st; try discriminate; injection N as <-; destruct I as [I|[]]; try discriminate; injection I as _ <-;
            repeat match type of E with _ = match ?x with _ => _ end => destruct x | _ = (if ?x then _ else _) => destruct x end; try discriminate; destruct ops as [|[] ?]; discriminate.
        - exfalso. pose proof (g_wf _ _ G) as W. destruct P as [| |c0|c0 vs0|c0 v0|c0 v0 n|c0 ls|c0 r0 l f filt st|c0 r0 out st|c0 r0 sh st|c0 r0 sc0 st|l r0 st|st ops log]; cbn in N, W; try discriminate; try contradiction.
          + destruct vs0; discriminate.
          + destruct ls; discriminate.
          + destruct st; try discriminate; destruct l; try discriminate. destruct then_l; discriminate.
          + destruct st; discriminate.
          + destruct st; try discriminate; contradiction.
          + destruct W as [ST W]; destruct st; try discriminate; contradiction.
          + destruct st; discriminate. }
      destruct X as [(v' & vs' & ->)|(pt & g & _ & -> & I)]; [exact (f_eof _ F i c r sc v' vs' got A)|exact I].
  Qed.
  Lemma fine_safe : forall s, fine s -> ~ crashes s.
  Proof.
    intros s F C. destruct C as [ps cl i P A N|ps cl i p k P A N I|ps cl i p v k P bs A N B I].
    - apply (no_crash i P (f_good _ F i P A) N).
    - pose proof (f_good _ F i P A) as G. destruct (close_port i P p k G N) as [(-> & O & _)|(r & -> & X & _)]; [apply (f_own _ F i P i A O I)|apply (f_ctl _ F i P r A X I)].
    - pose proof (f_good _ F i P A) as G. destruct (send_own i P p v k G) as [-> O]; [eexists; split; eassumption|]. apply (f_own _ F i P i A O I).
  Qed.
End Fixed.
End Chan.
