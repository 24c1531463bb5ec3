(* P_Chan6.v -- which goroutines end. *)
From Coq Require Import List Bool Arith Lia.
From Verif Require Import Base M_Chan S_Chan P_Chan P_Chan2 P_Chan3 P_Chan4 P_Chan5.
Import ListNotations.
Open Scope list_scope.
Open Scope nat_scope.

Section Chan.
  Context {V : Type} (errV emptyV oneV : V) (isEmpty : V -> bool) (ravel : V -> list V) (pack : list nat -> list V -> V).
  Local Notation proc := (proc V).
  Local Notation sys := (sys V).
  Local Notation next := (next errV emptyV oneV isEmpty ravel pack).
  Local Notation step := (step errV emptyV oneV isEmpty ravel pack).
  Local Notation run := (run errV emptyV oneV isEmpty ravel pack).
  Local Notation can_send := (can_send errV emptyV oneV isEmpty ravel pack).
  Local Notation can_recv := (can_recv errV emptyV oneV isEmpty ravel pack).
  Local Notation moves := (moves errV emptyV oneV isEmpty ravel pack).
  Local Notation moved := (moved errV emptyV oneV isEmpty ravel pack).
  Local Notation main_next := (main_next oneV).
  Local Notation apply_call := (apply_call isEmpty).

  Definition total (P : proc) : Prop := match P with PApply _ _ (LChan _) f _ _ => never_fails f | PMain _ _ _ => False | _ => True end.
  Definition polite_proc (P : proc) : Prop :=
    match P with PEnd | PClose _ | PSend _ _ | PRepeat _ _ _ | PLines _ _ | PScope _ _ _ _ => True | _ => False end.
  (* the operations of the main program that exhaust its channel *)
  Definition pending (P : proc) : Prop :=
    match P with PMain st ops _ => match st with MShow _ | MClose _ _ | MDrain _ _ | MReduce _ _ _ | MScan _ _ _ => True | _ => exhausts ops end | _ => False end.

  Section Fixed.
  Context (reader : nat -> nat) (K : nat -> Prop).
  Local Notation fine := (fine reader K).
  Local Notation good := (good reader K).
  Lemma call_total : forall c r l f filt lv v st, total (PApply c r l f filt st) -> total (apply_call c r l f filt lv v).
  Proof. intros c r l f filt lv v st T. unfold M_Chan.apply_call. destruct (f lv v); exact T || exact I. Qed.
  Lemma push_total : forall es c r sh acc, total (rho_push c r sh acc es).
  Proof. induction es as [|e es IH]; intros; cbn [rho_push]; [exact I|]. destruct (_ <=? _); [exact I|]. destruct (_ =? _); [exact I|apply IH]. Qed.
  Lemma cells_total : forall c r sc got eof vs, total (cells_push c r sc got eof vs).
  Proof. intros c r sc got eof [|v vs]; [destruct eof|]; exact I. Qed.
  Lemma push_ctls : forall es c r sh acc, length acc < chunk_size sh -> ctls (rho_push (V:=V) c r sh acc es) = [r].
  Proof.
    induction es as [|e es IH]; intros c r sh acc L; cbn [rho_push]; [reflexivity|]. destruct (chunk_size sh <=? length acc) eqn:Q; [apply Nat.leb_le in Q; lia|].
    destruct (_ =? _) eqn:Q2; [reflexivity|]. apply Nat.eqb_neq in Q2. apply IH. rewrite app_length in *. cbn in *. lia.
  Qed.
  Lemma call_ctls : forall c r l f filt lv v, (f lv v <> Err \/ lchan l = []) -> f lv v <> Panic -> ctls (apply_call c r l f filt lv v) = r :: lchan l.
  Proof. intros c r l f filt lv v H NP. unfold M_Chan.apply_call. destruct (f lv v) as [w| |]; [destruct (filt && isEmpty w); reflexivity| |congruence]. destruct H as [H|H]; [congruence|]. cbn. rewrite H. reflexivity. Qed.

  (* what goroutine c drops is closed *)
  Lemma drop_closed : forall s lab s' c P P', fine s -> step s lab s' -> at_ s c P -> moved s s' c P P' lab -> total P ->
    total P' /\ forall r, In r (ctls P) -> In r (ctls P') \/ In (Ctl r) (closed s') \/ In (Data r) (closed s').
  Proof.
    intros s lab s' c P P' F H A M T. pose proof (f_good _ _ _ F c P A) as G. pose proof (g_wf _ _ _ _ G) as W. pose proof (step_closed _ _ _ _ _ _ _ _ _ H) as CL.
    destruct M as [lab S ->|j pt w Q g NE (bs & N & I) OP AQ CRV|i pt w g Q k NE (bs & N & I) OP -> AQ CS|pt g (bs & N & I) IC ->|pt N OP].
    - split; auto.
    - destruct P as [| |c0|c0 vs|c0 v0|c0 v0 n|c0 ls|c0 r l f filt st|c0 r out st|c0 r sh st|c0 r sc st|l r st|st ops log]; cbn in N, W, T; try discriminate; try contradiction.
      + destruct vs as [|u vs]; try discriminate. injection N as <-. destruct I as [I|[I|[]]]; try discriminate. injection I as _ _ <-. unfold sendall. destruct vs; cbn; auto.
      + injection N as <-. destruct I as [I|[I|[]]]; try discriminate. injection I as _ _ <-. destruct W as (m & -> & M1). destruct (m <=? 1); cbn; auto.
      + destruct ls; try discriminate. injection N as <-. destruct I as [I|[I|[]]]; try discriminate. injection I as _ _ <-. cbn; auto.
      + destruct st; try discriminate; try (destruct l; discriminate).
        * injection N as <-. destruct I as [I|[I|[]]]; try discriminate.
        * destruct l; try discriminate. injection N as <-. destruct I as [I|[]]; discriminate.
        * injection N as <-. destruct I as [I|[]]. injection I as _ _ <-. split; [exact T|]. cbn. auto.
        * injection N as <-. destruct I as [I|[]]. injection I as _ _ <-. split; [exact T|]. cbn. auto.
      + destruct st; try discriminate; injection N as <-; destruct I as [I|[I|[]]]; try discriminate. injection I as _ _ <-. cbn. auto.
      + destruct st; try discriminate; injection N as <-; destruct I as [I|[I|[]]]; try discriminate. injection I as _ _ <-. split; [apply push_total|]. rewrite push_ctls by (cbn; lia). auto.
      + destruct W as [ST W]. destruct st as [got|v ws got eof|got| |]; try discriminate; try contradiction; injection N as <-; destruct I as [I|[I|[]]]; try discriminate. injection I as _ _ <-. split; [apply cells_total|].
        destruct ws as [|w0 ws]; [destruct eof|]; cbn; auto. intros x [<-|[]]. right. right. rewrite CL. exact (f_eof _ _ _ F _ _ _ _ _ _ _ A).
    - pose proof (send_own errV emptyV oneV isEmpty ravel pack reader K i Q pt w k (f_good _ _ _ F i Q AQ) CS) as [-> _].
      destruct P as [| |c0|c0 vs|c0 v0|c0 v0 n|c0 ls|c0 r l f filt st|c0 r out st|c0 r sh st|c0 r sc st|l r st|st ops log]; cbn in N, W, T; try discriminate; try contradiction.
      + destruct vs as [|u vs]; try discriminate. injection N as <-. destruct I as [I|[I|[]]]; discriminate.
      + injection N as <-. destruct I as [I|[I|[]]]; discriminate.
      + destruct ls; try discriminate. injection N as <-. destruct I as [I|[I|[]]]; discriminate.
      + destruct W as (W1 & W2 & W3). destruct st; try discriminate; try (destruct l; discriminate).
        * injection N as <-. destruct I as [I|[I|[]]]; try discriminate. injection I as _ <-. destruct l as [lv|lc]; [|split; [exact T|cbn; auto]].
          split; [apply (call_total c0 r (LVal lv) f filt lv w ALoop I)|]. intros x X. left. rewrite call_ctls; auto.
        * destruct l as [lv|lc]; try discriminate. injection N as <-. destruct I as [I|[]]; try discriminate. injection I as _ <-.
          split; [apply (call_total c0 r (LChan lc) f filt (Some w) v ALoop T)|]. intros x X. left. rewrite call_ctls; auto.
        * injection N as <-. destruct I as [I|[]]. discriminate.
        * injection N as <-. destruct I as [I|[]]. discriminate.
      + destruct st; try discriminate; injection N as <-; destruct I as [I|[I|[]]]; try discriminate. injection I as _ <-. cbn. auto.
      + destruct st; try discriminate; try contradiction; injection N as <-; destruct I as [I|[I|[]]]; try discriminate. injection I as _ <-. split; [apply push_total|]. rewrite push_ctls by exact W. auto.
      + destruct W as [ST W]. destruct st as [got|v ws got eof|got| |]; try discriminate; try contradiction; injection N as <-; destruct I as [I|[I|[]]]; try discriminate. injection I as _ <-. unfold cells_more. split; [apply cells_total|].
        destruct (skipn _ _); cbn; auto.
    - destruct P as [| |c0|c0 vs|c0 v0|c0 v0 n|c0 ls|c0 r l f filt st|c0 r out st|c0 r sh st|c0 r sc st|l r st|st ops log]; cbn in N, W, T; try discriminate; try contradiction.
      + destruct vs as [|u vs]; try discriminate. injection N as <-. destruct I as [I|[I|[]]]; try discriminate. injection I as _ <-. cbn; auto.
      + injection N as <-. destruct I as [I|[I|[]]]; try discriminate. injection I as _ <-. cbn; auto.
      + destruct ls; try discriminate. injection N as <-. destruct I as [I|[I|[]]]; try discriminate. injection I as _ <-. cbn; auto.
      + destruct W as (W1 & W2 & W3). destruct st; try discriminate; try (destruct l; discriminate).
        * injection N as <-. destruct I as [I|[I|[]]]; injection I as <- <-; [split; [exact T|cbn; auto]|]. rewrite CL.
          destruct l as [lv|lc]; (split; [exact T || exact I|]); intros x [<-|X]; auto.
        * destruct l as [lv|lc]; try discriminate. injection N as <-. destruct I as [I|[]]; try discriminate. injection I as _ <-.
          split; [apply (call_total c0 r (LChan lc) f filt None v ALoop T)|]. intros x X. left. rewrite call_ctls; auto.
        * injection N as <-. destruct I as [I|[]]. discriminate.
        * injection N as <-. destruct I as [I|[]]. discriminate.
      + destruct st; try discriminate; injection N as <-; destruct I as [I|[I|[]]]; try discriminate; injection I as <- <-; (split; [exact I|]); cbn; rewrite ?CL; auto. intros x [<-|[]]. auto.
      + assert (KI : K c) by (apply (g_rho _ _ _ _ G); left; exists c0, r, sh, st; reflexivity). pose proof (g_own _ _ _ _ G c0 eq_refl) as <-.
        destruct st; try discriminate; try contradiction; injection N as <-; destruct I as [I|[I|[]]]; try discriminate; injection I as <- <-.
        * exfalso. exact (f_k _ _ _ F c0 KI IC).
        * split; [exact I|]. rewrite CL. intros x [<-|[]]. auto.
        * exfalso. exact (f_k _ _ _ F c0 KI IC).
      + assert (KI : K c) by (apply (g_rho _ _ _ _ G); right; exists c0, r, sc, st; reflexivity). pose proof (g_own _ _ _ _ G c0 eq_refl) as <-.
        destruct W as [ST W]. destruct st as [got|v ws got eof|got| |]; try discriminate; try contradiction; injection N as <-; destruct I as [I|[I|[]]]; try discriminate; injection I as <- <-; rewrite CL.
        * exfalso. exact (f_k _ _ _ F c0 KI IC).
        * unfold cells_finish. split; [apply cells_total|]. intros x [<-|[]]. auto.
        * split; [exact I|]. intros x [<-|[]]. auto.
    - rewrite CL. destruct P as [| |c0|c0 vs|c0 v0|c0 v0 n|c0 ls|c0 r l f filt st|c0 r out st|c0 r sh st|c0 r sc st|l r st|st ops log]; cbn in N, W, T; try discriminate; try contradiction.
      + injection N as <- <-. cbn; auto.
      + destruct vs; discriminate.
      + destruct ls; try discriminate. injection N as <- <-. cbn; auto.
      + destruct W as (W1 & W2 & W3). destruct st; try discriminate.
        * destruct l; discriminate.
        * injection N as <- <-. destruct l as [lv|lc]; [split; [exact I|]; destruct then_l; intros x [<-|[]]; cbn; auto|].
          destruct then_l; (split; [exact T || exact I|]); intros x; cbn; [intros [<-|[<-|[]]]; auto|intros [<-|[]]; auto].
        * destruct l; try discriminate. injection N as <- <-. split; [exact I|]. intros x [<-|[]]. cbn. auto.
      + destruct st; try discriminate. injection N as <- <-. split; [exact I|]. intros x [<-|[]]. cbn. auto.
      + destruct st; try discriminate; contradiction.
      + destruct W as [ST W]; destruct st; try discriminate; contradiction.
  Qed.
  Lemma polite_step : forall s lab s' c P P', fine s -> at_ s c P -> moved s s' c P P' lab -> polite_proc P -> polite_proc P'.
  Proof.
    intros s lab s' c P P' F A M T. pose proof (g_wf _ _ _ _ (f_good _ _ _ F c P A)) as W.
    destruct M as [lab S ->|j pt w Q g NE (bs & N & I) OP AQ CRV|i pt w g Q k NE (bs & N & I) OP -> AQ CS|pt g (bs & N & I) IC ->|pt N OP]; auto;
    destruct P as [| |c0|c0 vs|c0 v0|c0 v0 n|c0 ls|c0 r l f filt st|c0 r out st|c0 r sh st|c0 r sc st|l r st|st ops log]; cbn in N, W, T; try discriminate; try contradiction;
      try (destruct vs as [|u vs]; try discriminate); try (destruct ls as [|u ls]; try discriminate); try (destruct st; try discriminate);
      try (injection N as <- <-; exact Logic.I); (injection N as <-; destruct I as [I|[I|[]]]; try discriminate; injection I; intros; subst); try exact Logic.I.
    - unfold sendall. destruct vs; exact Logic.I.
    - destruct n as [n|]; [|exact Logic.I]. destruct (n <=? 1); exact Logic.I.
  Qed.
  (* a closed goroutine goes on *)
  Lemma polite_moves : forall s c P, fine s -> at_ s c P -> polite_proc P -> In (Ctl c) (closed s) -> P = PEnd \/ moves s.
  Proof.
    intros s c P F A T IC. pose proof (f_good _ _ _ F c P A) as G. pose proof (g_wf _ _ _ _ G) as W. pose proof (g_own _ _ _ _ G) as GO.
    destruct P as [| |c0|c0 vs|c0 v0|c0 v0 n|c0 ls|c0 r l f filt st|c0 r out st|c0 r sh st|c0 r sc st|l r st|st ops log]; cbn in T, W; try contradiction; auto; right; cbn in GO; pose proof (GO c0 eq_refl) as ->.
    - eapply close_moves; [exact F|exact A|reflexivity].
    - destruct vs as [|u vs]; [exfalso; apply W; reflexivity|]. eapply eof_moves; [exact A|eexists; split; [reflexivity|left; reflexivity]|exact IC].
    - eapply eof_moves; [exact A|eexists; split; [reflexivity|left; reflexivity]|exact IC].
    - destruct ls as [|u ls]; [eapply close_moves; [exact F|exact A|reflexivity]|]. eapply eof_moves; [exact A|eexists; split; [reflexivity|left; reflexivity]|exact IC].
    - destruct st; [eapply eof_moves; [exact A|eexists; split; [reflexivity|left; reflexivity]|exact IC]|eapply eof_moves; [exact A|eexists; split; [reflexivity|left; reflexivity]|exact IC]|].
      eapply close_moves; [exact F|exact A|reflexivity].
  Qed.

  (* ---------- the invariant ---------- *)
  Context (n : nat) (gentle : nat -> Prop).   (* the channels 2 ... n; those with polite goroutines *)
  Record neat (s : sys) : Prop := mkNeat {
    n_fine : fine s;
    n_total : forall c P, 0 < c -> at_ s c P -> total P;
    n_link : forall r, 1 < r <= n -> forall P, at_ s (reader r) P -> In r (ctls P) \/ In (Ctl r) (closed s) \/ In (Data r) (closed s);
    n_gentle : forall c P, gentle c -> at_ s c P -> polite_proc P;
    n_main : forall P, at_ s 0 P -> (exists st ops log, P = PMain st ops log) /\ (pending P \/ In (Data 1) (closed s)) }.
  Context (RD : forall r, 1 < r <= n -> 0 < reader r < r).
  Lemma pending_next : forall ops log, exhausts ops -> pending (main_next ops log).
  Proof.
    intros [|o ops] log (x & I & X); [destruct I|]. destruct I as [->|I].
    - destruct x; try contradiction; exact Logic.I.
    - cbn. destruct o; cbn; try exact Logic.I; exists x; auto.
  Qed.
  Lemma neat_step : forall s lab s', neat s -> step s lab s' -> neat s'.
  Proof.
    intros s lab s' NT H. pose proof (n_fine _ NT) as F. pose proof (step_closed _ _ _ _ _ _ _ _ _ H) as CL. split.
    - eapply fine_step; eassumption.
    - intros c P' C A'. destruct (step_back _ _ _ _ _ _ _ _ _ H c P' A') as (P & A & M). eapply (drop_closed _ _ _ c P P'); try eassumption. eapply n_total; eassumption.
    - intros r R P' A'. destruct (step_back _ _ _ _ _ _ _ _ _ H _ P' A') as (P & A & M).
      destruct (n_link _ NT r R P A) as [I|[I|I]].
      + eapply (drop_closed _ _ _ (reader r) P P'); try eassumption. eapply n_total; [exact NT|apply (RD r R)|exact A].
      + right. left. rewrite CL. destruct lab; auto. right. exact I.
      + right. right. rewrite CL. destruct lab; auto. right. exact I.
    - intros c P' GC A'. destruct (step_back _ _ _ _ _ _ _ _ _ H c P' A') as (P & A & M). eapply polite_step; [exact F|exact A|exact M|]. eapply n_gentle; eassumption.
    - intros P' A'. destruct (step_back _ _ _ _ _ _ _ _ _ H 0 P' A') as (P & A & M). destruct (n_main _ NT P A) as [(st & ops & log & ->) PD].
      pose proof (f_good _ _ _ F 0 _ A) as G. destruct (g_wf _ _ _ _ G) as (WM & UO & DU & IDLE).
      assert (MN : forall l, exists st ops' log', main_next ops l = PMain st ops' log') by (intros l; apply is_main).
      assert (KC : In (Data 1) (closed s) -> In (Data 1) (closed s')) by (intros I; rewrite CL; destruct lab; auto; right; exact I).
      destruct M as [lab S ->|j pt w Q g NE (bs & N & I) OP AQ CRV|i pt w g Q k NE (bs & N & I) OP -> AQ CS|pt g CRV IC ->|pt N OP].
      + split; [eauto|]. destruct PD as [PD|PD]; auto.
      + destruct (send_own errV emptyV oneV isEmpty ravel pack reader K 0 _ pt w P' G) as [_ X]; [eexists; split; eassumption|]. discriminate.
      + destruct st as [|c|c|c sh got|c res|c res|f c acc|f c acc|c v]; cbn in N; try discriminate; injection N as <-; destruct I as [I|[]]; try discriminate; injection I as EP <-.
        * split; [apply MN|]. destruct PD as [PD|PD]; [left; apply pending_next; exact PD|auto].
        * split; [eauto|]. left. exact Logic.I.
        * destruct (_ =? _); (split; [first [apply MN|eauto]|]); destruct PD as [PD|PD]; auto. left. apply pending_next. exact PD.
        * split; [eauto|]. left. exact Logic.I.
        * destruct WM as [_ NP]. destruct acc as [a|]; [destruct (f (Some a) w) eqn:Q1|]; try (split; [eauto|left; exact Logic.I]). exfalso. exact (NP _ _ Q1).
        * destruct WM as [_ NP]. destruct (rev acc) as [|a ra]; [|destruct (f (Some a) w) eqn:Q1]; try (split; [eauto|left; exact Logic.I]). exfalso. exact (NP _ _ Q1).
      + destruct (recv_port errV emptyV oneV isEmpty ravel pack reader K 0 _ pt g G CRV) as [[_ X]|[(r & -> & [<-|[]])|(r & -> & IR)]]; [discriminate| |exfalso; exact (f_ctl _ _ _ F 0 _ r A IR IC)].
        split; [|right; apply KC; exact IC]. destruct CRV as (bs & N & I).
        destruct st as [|c|c|c sh got|c res|c res|f c acc|f c acc|c v]; cbn in N; try discriminate; injection N as <-; destruct I as [I|[]]; try discriminate; injection I as EP <-; first [apply MN|eauto].
      + destruct st as [|c|c|c sh got|c res|c res|f c acc|f c acc|c v]; cbn in N; try discriminate. injection N as <- <-. split; [eauto|]. left. exact Logic.I.
  Qed.
  Lemma neat_run : forall s t s', run s t s' -> neat s -> neat s'.
  Proof. intros s t s' H I. induction H as [s|s t s1 l s2 H IH ST]; [exact I|]. eapply neat_step; [apply IH, I|exact ST]. Qed.
  Lemma no_own : forall s i P, neat s -> 0 < i -> at_ s i P -> In (Data i) (closed s) -> P = PEnd.
  Proof.
    intros s i P NT LT A IC. pose proof (n_fine _ NT) as F. pose proof (f_good _ _ _ F i P A) as G. destruct (own P) as [c|] eqn:O.
    - pose proof (g_own _ _ _ _ G c O) as ->. exfalso. exact (f_own _ _ _ F i P i A O IC).
    - pose proof (n_total _ NT i P LT A) as T. pose proof (g_wf _ _ _ _ G) as W. destruct P; try discriminate; auto; contradiction.
  Qed.
  Lemma neat_ends : forall s, neat s -> length (procs s) = S n -> (forall r, 1 < r <= n -> K r \/ gentle r) -> In (Data 1) (closed s) -> ~ moves s -> all_ended s.
  Proof.
    intros s NT LEN COV I1 NM. intros i. induction i as [i IH] using lt_wf_ind. intros P LT A.
    assert (LE : i <= n) by (assert (i < length (procs s)) by (apply nth_error_Some; congruence); lia).
    destruct (Nat.eq_dec i 1) as [->|NE]; [exact (no_own s 1 P NT LT A I1)|].
    assert (R : 1 < i <= n) by lia. destruct (RD i R) as [R0 R1].
    destruct (nth_error (procs s) (reader i)) as [Q|] eqn:AQ; [|apply nth_error_None in AQ; lia].
    pose proof (IH (reader i) R1 Q R0 AQ) as ->. destruct (n_link _ NT i R PEnd AQ) as [[]|[IC|ID]]; [|exact (no_own s i P NT LT A ID)].
    destruct (COV i R) as [KI|GI]; [exfalso; exact (f_k _ _ _ (n_fine _ NT) i KI IC)|].
    destruct (polite_moves s i P (n_fine _ NT) A (n_gentle _ NT i P GI A) IC) as [->|M]; [reflexivity|contradiction].
  Qed.
  End Fixed.

End Chan.

(* ---------- the start ---------- *)
Section Start.
  Context {V : Type}.
  Lemma covered : forall (p : plan V) c r, c < r < c + count p -> exists j P, nth_error (goroutines c p) j = Some P /\ In r (datas P) /\ In r (ctls P).
  Proof.
    induction p as [vs|vs|v n|f lv filt p IH|f filt pl IHl p IH|p IH|sh p IH|sc p IH]; intros c r R; cbn [count] in R; try lia.
    - destruct (Nat.eq_dec r (S c)) as [->|NE]; [exists 0; eexists; split; [reflexivity|cbn; auto]|]. destruct (IH (S c) r) as (j & P & E & I); [lia|]. exists (S j), P. auto.
    - destruct (Nat.eq_dec r (S c)) as [->|NE]; [exists 0; eexists; split; [reflexivity|cbn; auto]|]. destruct (Nat.eq_dec r (S c + count p)) as [->|NE']; [exists 0; eexists; split; [reflexivity|cbn; auto]|].
      destruct (Nat.lt_ge_cases r (S c + count p)) as [L|L].
      + destruct (IH (S c) r) as (j & P & E & I); [lia|]. exists (S j), P. split; [|exact I]. cbn. rewrite nth_error_app1; [exact E|]. apply nth_error_Some. congruence.
      + destruct (IHl (S c + count p) r) as (j & P & E & I); [lia|]. exists (S (count p + j)), P. split; [|exact I]. cbn. rewrite nth_error_app2 by (rewrite goroutines_length; lia).
        rewrite goroutines_length. replace (count p + j - count p) with j by lia. exact E.
    - destruct (Nat.eq_dec r (S c)) as [->|NE]; [exists 0; eexists; split; [reflexivity|cbn; auto]|]. destruct (IH (S c) r) as (j & P & E & I); [lia|]. exists (S j), P. auto.
    - destruct (Nat.eq_dec r (S c)) as [->|NE]; [exists 0; eexists; split; [reflexivity|cbn; auto]|]. destruct (IH (S c) r) as (j & P & E & I); [lia|]. exists (S j), P. auto.
    - destruct (Nat.eq_dec r (S c)) as [->|NE]; [exists 0; eexists; split; [reflexivity|cbn; auto]|]. destruct (IH (S c) r) as (j & P & E & I); [lia|]. exists (S j), P. auto.
  Qed.
  Fixpoint totals (p : plan V) : Prop :=
    match p with Map _ _ _ p | Scope p | Reshape _ p | Cells _ p => totals p | Zip f _ pl p => never_fails f /\ totals pl /\ totals p | _ => True end.
  Lemma totals_init : forall (p : plan V) c j P, totals p -> nth_error (goroutines c p) j = Some P -> total P.
  Proof.
    induction p as [vs|vs|v n|f lv filt p IH|f filt pl IHl p IH|p IH|sh p IH|sc p IH]; intros c j P T E; cbn [goroutines] in E; cbn in T.
    - destruct j as [|[|j]]; try discriminate. cbn in E. injection E as <-. unfold sendall. destruct vs; exact I.
    - destruct j as [|[|j]]; try discriminate. cbn in E. injection E as <-. exact I.
    - destruct j as [|[|j]]; try discriminate. cbn in E. injection E as <-. unfold source. destruct (Z.eqb _ _); exact I.
    - destruct j as [|j]; cbn in E; [injection E as <-; exact I|eauto].
    - destruct T as (NF & TL & T). destruct j as [|j]; cbn in E; [injection E as <-; exact NF|]. destruct (Nat.ltb_spec j (count p)) as [L|L].
      + rewrite nth_error_app1 in E by (rewrite goroutines_length; exact L). eauto.
      + rewrite nth_error_app2 in E by (rewrite goroutines_length; exact L). eauto.
    - destruct j as [|j]; cbn in E; [injection E as <-; exact I|eauto].
    - destruct j as [|j]; cbn in E; [injection E as <-; exact I|eauto].
    - destruct j as [|j]; cbn in E; [injection E as <-; exact I|eauto].
  Qed.
  Lemma polite_init : forall (p : plan V) c j P, polite p -> plain p -> nth_error (goroutines c p) j = Some P -> polite_proc P.
  Proof.
    induction p as [vs|vs|v n|f lv filt p IH|f filt pl IHl p IH|p IH|sh p IH|sc p IH]; intros c j P T PL E; cbn [goroutines] in E; cbn in T, PL; try contradiction.
    - destruct j as [|[|j]]; try discriminate. cbn in E. injection E as <-. unfold sendall. destruct vs; exact I.
    - destruct j as [|[|j]]; try discriminate. cbn in E. injection E as <-. exact I.
    - destruct j as [|[|j]]; try discriminate. cbn in E. injection E as <-. unfold source. destruct (Z.eqb _ _) eqn:Z0; [apply Z.eqb_eq in Z0; lia|]. exact I.
    - destruct j as [|j]; cbn in E; [injection E as <-; exact I|eauto].
  Qed.
  Lemma polite_totals : forall p : plan V, polite p -> totals p.
  Proof. induction p; cbn; auto; contradiction. Qed.
  Lemma drains_totals : forall p : plan V, drains p -> totals p.
  Proof. induction p; cbn; auto; [tauto|]. intros (A & B & C). auto using polite_totals. Qed.
  Lemma one_totals : forall p : plan V, one_apply p -> totals p.
  Proof. destruct p; cbn; auto using polite_totals; try contradiction. intros (A & B & C). auto using polite_totals. Qed.
  Lemma drains_cover : forall (p : plan V) c j P, drains p -> fits p \/ plain p -> nth_error (goroutines c p) j = Some P -> spine c p (c + j) \/ polite_proc P.
  Proof.
    induction p as [vs|vs|v n|f lv filt p IH|f filt pl IHl p IH|p IH|sh p IH|sc p IH]; intros c j P T FT E; cbn [goroutines] in E; cbn in T, FT; cbn [spine].
    - destruct j as [|[|j]]; try discriminate. left. lia.
    - destruct j as [|[|j]]; try discriminate. left. lia.
    - destruct j as [|[|j]]; try discriminate. left. lia.
    - destruct T as [NF T]. destruct j as [|j]; [left; left; lia|]. cbn in E. destruct (IH (S c) j P T) as [X|X]; [tauto|exact E| |auto]. replace (S c + j) with (c + S j) in X by lia. auto.
    - destruct T as (NF & PL & T). destruct j as [|j]; [left; left; lia|]. cbn in E. destruct (Nat.ltb_spec j (count p)) as [L|L].
      + rewrite nth_error_app1 in E by (rewrite goroutines_length; exact L). destruct (IH (S c) j P T) as [X|X]; [tauto|exact E| |auto]. replace (S c + j) with (c + S j) in X by lia. auto.
      + rewrite nth_error_app2 in E by (rewrite goroutines_length; exact L). right. eapply polite_init; [exact PL|tauto|exact E].
    - destruct j as [|j]; [left; left; lia|]. cbn in E. destruct (IH (S c) j P T FT E) as [X|X]; [|auto]. replace (S c + j) with (c + S j) in X by lia. auto.
    - destruct j as [|j]; [left; left; lia|]. cbn in E. destruct (IH (S c) j P T) as [X|X]; [tauto|exact E| |auto]. replace (S c + j) with (c + S j) in X by lia. auto.
    - destruct j as [|j]; [left; left; lia|]. cbn in E. destruct (IH (S c) j P T) as [X|X]; [tauto|exact E| |auto]. replace (S c + j) with (c + S j) in X by lia. auto.
  Qed.
  Lemma one_cover : forall (p : plan V) c j P, one_apply p -> plain p -> nth_error (goroutines c p) (S j) = Some P -> polite_proc P.
  Proof.
    intros p c j P T PL E. destruct p as [vs|vs|v n|f lv filt p|f filt pl p|p|sh p|sc p]; cbn in T, PL, E; try contradiction; try (destruct j; discriminate).
    - eapply polite_init; [exact T|tauto|exact E].
    - destruct T as (NF & TL & T). destruct (Nat.ltb_spec j (count p)) as [L|L].
      + rewrite nth_error_app1 in E by (rewrite goroutines_length; exact L). eapply (polite_init p); [exact T|tauto|exact E].
      + rewrite nth_error_app2 in E by (rewrite goroutines_length; exact L). eapply (polite_init pl); [exact TL|tauto|exact E].
    - eapply polite_init; [exact T|exact PL|exact E].
  Qed.
End Start.

Section Chan2.
  Context {V : Type} (errV emptyV oneV : V) (isEmpty : V -> bool) (ravel : V -> list V) (pack : list nat -> list V -> V).
  Local Notation proc := (proc V).
  Local Notation sys := (sys V).
  Local Notation next := (next errV emptyV oneV isEmpty ravel pack).
  Local Notation step := (step errV emptyV oneV isEmpty ravel pack).
  Local Notation run := (run errV emptyV oneV isEmpty ravel pack).
  Local Notation can_send := (can_send errV emptyV oneV isEmpty ravel pack).
  Local Notation can_recv := (can_recv errV emptyV oneV isEmpty ravel pack).
  Local Notation moves := (moves errV emptyV oneV isEmpty ravel pack).
  Local Notation moved := (moved errV emptyV oneV isEmpty ravel pack).
  Local Notation main_next := (main_next oneV).
  Local Notation apply_call := (apply_call isEmpty).

  Lemma neat_init : forall (p : plan V) ops (gentle : nat -> Prop), tidy 1 ops -> fits p -> (closes ops = 0 \/ plain p) -> totals p -> exhausts ops ->
    (forall c P, gentle c -> at_ (system oneV p ops) c P -> polite_proc P) -> neat (sys_reader oneV p ops) (sys_K p ops) (count p) gentle (system oneV p ops) /\
      (forall r, 1 < r <= count p -> 0 < sys_reader oneV p ops r < r) /\ length (procs (system oneV p ops)) = S (count p).
  Proof.
    intros p ops gentle T FT C TT EX GE.
    assert (LINK : forall r, 1 < r <= count p -> exists j P, nth_error (goroutines 1 p) j = Some P /\ In r (datas P) /\ In r (ctls P) /\ sys_reader oneV p ops r = S j).
    { intros r R. destruct (covered p 1 r) as (j & P & E & I & I'); [lia|]. exists j, P. repeat split; auto. unfold sys_reader. eapply reader_spec; [apply system_nodup, T|exact E|exact I]. }
    split; [|split].
    - split.
      + apply system_fine; assumption.
      + intros c P LT A. destruct c as [|c]; [lia|]. eapply totals_init; [exact TT|exact A].
      + intros r R P A. left. destruct (LINK r R) as (j & Q & E & _ & I & ER). rewrite ER in A. unfold at_, system in A. cbn in A. congruence.
      + exact GE.
      + intros P A. unfold at_, system in A. cbn in A. injection A as <-. split; [apply is_main|]. left. apply pending_next, EX.
    - intros r R. destruct (LINK r R) as (j & Q & E & I & _ & ER). rewrite ER. pose proof (datas_above oneV isEmpty ravel pack p 1 j Q r E I). lia.
    - unfold system. cbn. rewrite goroutines_length. reflexivity.
  Qed.
  Lemma run_length : forall s t s', run s t s' -> length (procs s') = length (procs s).
  Proof. intros s t s' H. induction H as [s|s t s1 l s2 H IH ST]; [reflexivity|]. rewrite (step_length _ _ _ _ _ _ _ _ _ ST). exact IH. Qed.
  (* at the end all goroutines have returned *)
  Lemma ends_all : forall (p : plan V) ops (gentle : nat -> Prop) t s, tidy 1 ops -> fits p -> (closes ops = 0 \/ plain p) -> totals p -> exhausts ops ->
    (forall c P, gentle c -> at_ (system oneV p ops) c P -> polite_proc P) -> (forall r, 1 < r <= count p -> sys_K p ops r \/ gentle r) ->
    run (system oneV p ops) t s -> ~ moves s -> all_ended s.
  Proof.
    intros p ops gentle t s T FT C TT EX GE COV RN NM. destruct (neat_init p ops gentle T FT C TT EX GE) as (NT & RD & LEN).
    assert (NS : neat (sys_reader oneV p ops) (sys_K p ops) (count p) gentle s) by (eapply neat_run; [exact RD|exact RN|exact NT]). pose proof (inv_run _ _ _ _ _ _ _ _ _ _ _ _ RN (inv_init errV emptyV oneV isEmpty ravel pack p ops T FT C)) as IV.
    eapply neat_ends; [exact RD|exact NS|rewrite (run_length _ _ _ RN); exact LEN|exact COV| |exact NM].
    pose proof (inv_done _ _ _ _ _ _ _ _ _ _ IV NM) as RT. destruct (n_main _ _ _ _ _ NS _ RT) as [_ [PD|ID]]; [|exact ID]. destruct PD as (o & [] & _).
  Qed.
End Chan2.
