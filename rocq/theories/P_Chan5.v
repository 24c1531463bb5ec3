(* P_Chan5.v -- the main program gets the specified results under every schedule. *)
From Coq Require Import List Bool Arith Lia.
From Verif Require Import Base M_Chan S_Chan P_Chan P_Chan2 P_Chan3 P_Chan4.
Import ListNotations.
Open Scope list_scope.
Open Scope nat_scope.

Section Chan.
  Context {V : Type} (errV emptyV oneV : V) (isEmpty : V -> bool) (ravel : V -> list V) (pack : list nat -> list V -> V).
  Local Notation proc := (proc V).
  Local Notation sys := (sys V).
  Local Notation next := (next errV emptyV oneV isEmpty ravel pack).
  Local Notation step := (step errV emptyV oneV isEmpty ravel pack).
  Local Notation run := (run errV emptyV oneV isEmpty ravel pack).
  Local Notation crashes := (crashes errV emptyV oneV isEmpty ravel pack).
  Local Notation can_send := (can_send errV emptyV oneV isEmpty ravel pack).
  Local Notation can_recv := (can_recv errV emptyV oneV isEmpty ravel pack).
  Local Notation moves := (moves errV emptyV oneV isEmpty ravel pack).
  Local Notation main_next := (main_next oneV).
  Local Notation outputs := (outputs errV isEmpty ravel pack).
  Local Notation results := (results emptyV oneV pack).
  Local Notation fold1 := (fold1 emptyV).
  Local Notation scan1 := (scan1 emptyV pack).
  Local Notation Del := (Del errV isEmpty ravel pack).

  Fixpoint scan_from (f : func V) (a : V) (vs : list V) : outcome (list V) :=
    match vs with [] => Ok [] | v :: vs' => let* w := f (Some a) v in (let* l := scan_from f w vs' in Ok (w :: l)) end.
  Lemma mapM_ext_in' : forall A B (f g : A -> outcome B) l, (forall x, f x = g x) -> mapM f l = mapM g l.
  Proof. intros A B f g l E. induction l as [|x l IH]; cbn; [reflexivity|]. rewrite E, IH. reflexivity. Qed.
  Lemma mapM_map' : forall A B C (g : A -> B) (f : B -> outcome C) l, mapM f (map g l) = mapM (fun x => f (g x)) l.
  Proof. intros A B C g f l. induction l as [|x l IH]; cbn; [reflexivity|]. rewrite IH. reflexivity. Qed.
  Definition fold_from (f : func V) (o : outcome V) (vs : list V) : outcome V := fold_left (fun a x => let* a := a in f (Some a) x) vs o.
  Lemma fold_stuck : forall f vs o, (o = Err \/ o = Panic) -> fold_from f o vs = o.
  Proof. intros f vs. induction vs as [|v vs IH]; intros o H; [reflexivity|]. cbn. destruct H as [-> | ->]; cbn; apply IH; auto. Qed.
  Lemma scan_prefixes : forall f vs a, mapM (fun i => fold_from f (Ok a) (firstn (S i) vs)) (seq 0 (length vs)) = scan_from f a vs.
  Proof.
    intros f. induction vs as [|v vs IH]; intros a; [reflexivity|]. cbn [length seq mapM scan_from]. cbn [firstn fold_from fold_left]. cbn [obind].
    destruct (f (Some a) v) as [w| |] eqn:E; [|reflexivity|reflexivity]. cbn [obind]. rewrite <- seq_shift, mapM_map'.
    rewrite (mapM_ext_in' _ _ _ (fun i => fold_from f (Ok w) (firstn (S i) vs))); [rewrite IH; reflexivity|].
    intros i. cbn [firstn]. unfold fold_from. cbn [fold_left obind]. rewrite ?E. reflexivity.
  Qed.
  Lemma scan1_cons : forall f v vs, scan1 f (v :: vs) = let* l := scan_from f v vs in Ok (pack [length (v :: l)] (v :: l)).
  Proof.
    intros f v vs. unfold S_Chan.scan1. cbn [length seq mapM]. cbn [firstn S_Chan.fold1 fold_left obind]. rewrite <- seq_shift, mapM_map'.
    rewrite (mapM_ext_in' _ _ _ (fun i => fold_from f (Ok v) (firstn (S i) vs))) by reflexivity. rewrite scan_prefixes. destruct (scan_from f v vs); reflexivity.
  Qed.

  (* what is still to come *)
  Definition expect (st : mstate V) (ops : list (op V)) (vs : list V) : list (outcome V) :=
    match st with
    | MIdle => []
    | MTake c => results (Take c :: ops) vs
    | MShow c => results (Show c :: ops) vs
    | MTakeN c sh got => let n := chunk_size sh in let us := got ++ vs in
        if n <=? length us then Ok (pack sh (firstn n us)) :: results ops (skipn n us) else Err :: results ops []
    | MClose _ res | MDrain _ res => res :: results ops []
    | MReduce f _ None => fold1 f vs :: results ops []
    | MReduce f _ (Some a) => fold_from f (Ok a) vs :: results ops []
    | MScan f _ acc => match rev acc with [] => scan1 f vs | a :: _ => let* l := scan_from f a vs in Ok (pack [length (acc ++ l)] (acc ++ l)) end :: results ops []
    | MSend c v => results (SendC c v :: ops) vs
    end.
  Definition mexpect (P : proc) (vs : list V) : option (list (outcome V)) := match P with PMain st ops log => Some (log ++ expect st ops vs) | _ => None end.
  Lemma expect_next : forall ops log vs, Forall (use_of 1) ops -> mexpect (main_next ops log) vs = Some (log ++ results ops vs).
  Proof. intros ops log vs U. destruct ops as [|[] ops]; try reflexivity. Qed.

  Section Fixed.
  Context (reader : nat -> nat) (K : nat -> Prop).
  Local Notation fine := (fine reader K).
  Definition inv (R : list (outcome V)) (s : sys) : Prop :=
    fine s /\ exists st ops log vs, at_ s 0 (PMain st ops log) /\ Del s (LChan 1) (Stream vs) /\ log ++ expect st ops vs = R /\
      (In (Ctl 1) (closed s) -> In (Data 1) (closed s) \/ exists c res, st = MDrain c res).
  Lemma is_main : forall ops log, exists st ops' log', main_next ops log = PMain st ops' log'.
  Proof. intros [|o ops] log; cbn; eauto. Qed.
  Lemma del_stream : forall s c L, Del s (LChan c) L -> exists vs, L = Stream vs.
  Proof. intros s c L D. inversion D; eauto. Qed.
  Lemma inv_step : forall R s lab s', inv R s -> step s lab s' -> inv R s'.
  Proof.
    intros R s lab s' (F & st & ops & log & vs & A & D & E & C) H.
    pose proof (fine_step errV emptyV oneV isEmpty ravel pack reader K _ _ _ F H) as F'. split; [exact F'|].
    destruct (del_step errV emptyV oneV isEmpty ravel pack reader K _ _ _ F H _ _ D) as (L' & D' & AD). destruct (del_stream _ _ _ D') as (vs' & ->).
    destruct (step_view _ _ _ _ _ _ _ _ _ H 0 _ A) as (P' & A' & M). pose proof (step_closed _ _ _ _ _ _ _ _ _ H) as CL.
    pose proof (f_good _ _ _ F 0 _ A) as G. destruct (g_wf _ _ _ _ G) as (WM & UO & DU & IDLE).
    assert (R1 : reader 1 = 0) by (apply (g_data _ _ _ _ G 1); left; reflexivity).
    assert (OUT : forall st' ops' log', P' = PMain st' ops' log' -> log' ++ expect st' ops' vs' = R -> (In (Ctl 1) (closed s') -> In (Data 1) (closed s') \/ exists c res, st' = MDrain c res) ->
      exists st ops log vs, at_ s' 0 (PMain st ops log) /\ Del s' (LChan 1) (Stream vs) /\ log ++ expect st ops vs = R /\ (In (Ctl 1) (closed s') -> In (Data 1) (closed s') \/ exists c res, st = MDrain c res)).
    { intros st' ops' log' -> E' C'. exists st', ops', log', vs'. auto. }
    assert (NEXT : forall log', P' = main_next ops log' -> log' ++ results ops vs' = R -> (In (Ctl 1) (closed s') -> In (Data 1) (closed s')) ->
      exists st ops log vs, at_ s' 0 (PMain st ops log) /\ Del s' (LChan 1) (Stream vs) /\ log ++ expect st ops vs = R /\ (In (Ctl 1) (closed s') -> In (Data 1) (closed s') \/ exists c res, st = MDrain c res)).
    { intros log' EP ER EC. destruct (is_main ops log') as (st' & ops' & log'' & EM). apply (OUT st' ops' log''); [congruence| |intros I; left; exact (EC I)].
      pose proof (expect_next ops log' vs' UO) as X. rewrite EM in X. cbn in X. congruence. }
    destruct M as [lab S ->|j pt w Q g NE (bs & N & I) OP AQ CRV|i pt w g Q k NE CRV OP -> AQ CS|pt g CRV IC ->|pt N OP].
    - (* main does not move *)
      apply (OUT st ops log eq_refl).
      + destruct AD as [(j & v & us & EL & _ & _)|[EL|(_ & _ & EV)]].
        * subst lab. destruct (sender_port errV emptyV oneV isEmpty ravel pack reader K _ _ _ 1 j (Data 1) v F H eq_refl) as (_ & _ & X). rewrite R1 in X. cbn in S. exfalso. apply (proj2 S). exact X.
        * subst lab. assert (I : In (Ctl 1) (closed s)) by (inversion H; subst; assumption). destruct (C I) as [I1|(c & res & ->)]; [|exact E].
          pose proof (closed_nil _ _ _ _ _ _ _ _ _ F D I1) as X. injection X as ->. assert (I2 : In (Data 1) (closed s')) by (rewrite CL; exact I1).
          pose proof (closed_nil _ _ _ _ _ _ _ _ _ F' D' I2) as X. injection X as ->. exact E.
        * injection EV as ->. exact E.
      + intros I. rewrite CL in I |- *. destruct lab as [| |i p]; try exact (C I). destruct I as [->|I].
        * destruct (closes_by errV emptyV oneV isEmpty ravel pack reader K _ _ _ i _ F H eq_refl) as (P & AP & [(X & _)|(r & X & _ & _ & RR)]); [discriminate|]. injection X as <-. rewrite R1 in RR. cbn in S. subst i. exfalso. apply S. reflexivity.
        * destruct (C I) as [X|X]; [left; right; exact X|right; exact X].
    - (* main does not send *)
      destruct (send_own errV emptyV oneV isEmpty ravel pack reader K 0 _ pt w P' G) as [_ X]; [eexists; split; eassumption|]. discriminate.
    - (* main receives *)
      pose proof (send_own errV emptyV oneV isEmpty ravel pack reader K i Q pt w k (f_good _ _ _ F i Q AQ) CS) as [-> _].
      assert (I1 : i = 1).
      { destruct (recv_port errV emptyV oneV isEmpty ravel pack reader K 0 _ (Data i) g G CRV) as [[X _]|[(r & X & IR)|(r & X & _)]]; [discriminate| |discriminate]. injection X as <-. destruct IR as [X|[]]. auto. }
      subst i. destruct AD as [(j & v & us & EL & EV & EV')|[EL|(NC & _)]]; [|discriminate|exfalso; eapply NC; reflexivity].
      injection EL as <- <-. injection EV as ->. injection EV' as ->. destruct CRV as (bs & N & I).
      assert (NCL : In (Ctl 1) (closed s') -> exists c res, st = MDrain c res).
      { intros X. rewrite CL in X. destruct (C X) as [Y|Y]; [contradiction|exact Y]. }
      destruct st as [|c|c|c sh got|c res|c res|f c acc|f c acc|c v]; cbn in N; try discriminate; injection N as <-; destruct I as [I|[]]; try discriminate; injection I as EP <-.
      + apply (NEXT _ eq_refl); [rewrite <- app_assoc; exact E|]. intros X. destruct (NCL X) as (? & ? & Y). discriminate.
      + apply (OUT _ _ _ eq_refl); [rewrite <- app_assoc; exact E|]. intros X. destruct (NCL X) as (? & ? & Y). discriminate.
      + assert (EG : (got ++ [w]) ++ us = got ++ w :: us) by (rewrite <- app_assoc; reflexivity).
        destruct (length (got ++ [w]) =? chunk_size sh) eqn:Q1.
        * apply Nat.eqb_eq in Q1. apply (NEXT _ eq_refl); [|intros X; destruct (NCL X) as (? & ? & Y); discriminate]. rewrite <- E, <- app_assoc. f_equal. cbn [expect]. rewrite <- EG, <- Q1.
          assert (LE : (length (got ++ [w]) <=? length ((got ++ [w]) ++ us)) = true) by (apply Nat.leb_le; rewrite (app_length (got ++ [w]) us); lia). rewrite LE.
          rewrite firstn_app, skipn_app, Nat.sub_diag, firstn_all, skipn_all. cbn. rewrite app_nil_r. reflexivity.
        * apply (OUT _ _ _ eq_refl); [|intros X; destruct (NCL X) as (? & ? & Y); discriminate]. rewrite <- E. f_equal. cbn [expect]. rewrite EG. reflexivity.
      + apply (OUT _ _ _ eq_refl); [exact E|]. intros _. right. eauto.
      + destruct WM as [-> NP]. destruct acc as [a|]; [destruct (f (Some a) w) as [b| |] eqn:Q1|].
        * apply (OUT _ _ _ eq_refl); [|intros X; destruct (NCL X) as (? & ? & Y); discriminate]. rewrite <- E. cbn [expect]. unfold fold_from. cbn [fold_left obind]. rewrite Q1. reflexivity.
        * apply (OUT _ _ _ eq_refl); [|intros X; destruct (NCL X) as (? & ? & Y); discriminate]. rewrite <- E. cbn [expect]. unfold fold_from. cbn [fold_left obind]. rewrite Q1.
          pose proof (fold_stuck f us Err (or_introl eq_refl)) as X. unfold fold_from in X. rewrite X. reflexivity.
        * exfalso. exact (NP _ _ Q1).
        * apply (OUT _ _ _ eq_refl); [|intros X; destruct (NCL X) as (? & ? & Y); discriminate]. rewrite <- E. reflexivity.
      + destruct WM as [-> NP]. cbn [expect] in E. destruct (rev acc) as [|a ra] eqn:RA.
        * assert (acc = []) as -> by (rewrite <- (rev_involutive acc), RA; reflexivity).
          apply (OUT _ _ _ eq_refl); [|intros X; destruct (NCL X) as (? & ? & Y); discriminate]. rewrite <- E. cbn [expect rev app]. rewrite scan1_cons. reflexivity.
        * cbn [scan_from] in E. destruct (f (Some a) w) as [b| |] eqn:Q1.
          -- apply (OUT _ _ _ eq_refl); [|intros X; destruct (NCL X) as (? & ? & Y); discriminate]. rewrite <- E. cbn [expect]. rewrite rev_app_distr. cbn [rev app obind]. destruct (scan_from f b us); cbn [obind]; auto. rewrite <- app_assoc. reflexivity.
          -- apply (OUT _ _ _ eq_refl); [|intros X; destruct (NCL X) as (? & ? & Y); discriminate]. exact E.
          -- exfalso. exact (NP _ _ Q1).
    - (* the end of the channel *)
      destruct (recv_port errV emptyV oneV isEmpty ravel pack reader K 0 _ pt g G CRV) as [[_ X]|[(r & -> & [<-|[]])|(r & -> & IR)]]; [discriminate| |exfalso; exact (f_ctl _ _ _ F 0 _ r A IR IC)].
      pose proof (closed_nil _ _ _ _ _ _ _ _ _ F D IC) as X. injection X as ->. assert (I2 : In (Data 1) (closed s')) by (rewrite CL; exact IC).
      pose proof (closed_nil _ _ _ _ _ _ _ _ _ F' D' I2) as X. injection X as ->. destruct CRV as (bs & N & I).
      destruct st as [|c|c|c sh got|c res|c res|f c acc|f c acc|c v]; cbn in N; try discriminate; injection N as <-; destruct I as [I|[]]; try discriminate; injection I as EP <-.
      + apply (NEXT _ eq_refl); [rewrite <- app_assoc; exact E|auto].
      + apply (NEXT _ eq_refl); [exact E|auto].
      + apply (NEXT _ eq_refl); [|auto]. rewrite <- E, <- app_assoc. f_equal. cbn [expect]. rewrite app_nil_r. destruct WM as [_ LT]. destruct (chunk_size sh <=? length got) eqn:Q; [apply Nat.leb_le in Q; lia|]. reflexivity.
      + apply (NEXT _ eq_refl); [|auto]. rewrite <- app_assoc. exact E.
      + apply (OUT _ _ _ eq_refl); [|auto]. rewrite <- E. destruct acc; reflexivity.
      + apply (OUT _ _ _ eq_refl); [|auto]. rewrite <- E. f_equal. cbn [expect]. f_equal. destruct (rev acc) as [|a ra] eqn:RA.
        * assert (acc = []) as -> by (rewrite <- (rev_involutive acc), RA; reflexivity). reflexivity.
        * cbn. rewrite app_nil_r. destruct acc; [discriminate|reflexivity].
    - (* main closes *)
      destruct st as [|c|c|c sh got|c res|c res|f c acc|f c acc|c v]; cbn in N; try discriminate. injection N as <- <-.
      apply (OUT _ _ _ eq_refl); [exact E|]. intros _. right. eauto.
  Qed.
  Lemma inv_run : forall R s t s', run s t s' -> inv R s -> inv R s'.
  Proof. intros R s t s' H I. induction H as [s|s t s1 l s2 H IH ST]; [exact I|]. eapply inv_step; [apply IH, I|exact ST]. Qed.
  Lemma inv_done : forall R s, inv R s -> ~ moves s -> returned s R.
  Proof.
    intros R s (F & st & ops & log & vs & A & D & E & C) NM. pose proof (f_good _ _ _ F 0 _ A) as G. destruct (g_wf _ _ _ _ G) as (WM & UO & DU & IDLE).
    assert (WAIT : forall g, can_recv (PMain st ops log) (Data 1) g -> False) by (intros g CR; apply NM; eapply waiting_moves; [exact F|exact D|reflexivity|exact A|exact CR|lia]).
    destruct st as [|c|c|c sh got|c res|c res|f c acc|f c acc|c v]; cbn in WM; try contradiction; try (exfalso; first [subst c|destruct WM as [-> _]]; eapply WAIT; eexists; split; [reflexivity|left; reflexivity]).
    - rewrite (IDLE eq_refl) in A. cbn in E. rewrite app_nil_r in E. subst R. exact A.
    - exfalso. apply NM. eapply close_moves; [exact F|exact A|reflexivity].
  Qed.
  End Fixed.
  Lemma inv_init : forall (p : plan V) ops, tidy 1 ops -> fits p -> (closes ops = 0 \/ plain p) -> inv (sys_reader oneV p ops) (sys_K p ops) (results ops (outputs p)) (system oneV p ops).
  Proof.
    intros p ops T FT C. split; [apply system_fine; assumption|]. destruct T as [U L]. destruct (is_main ops []) as (st & ops' & log & E). exists st, ops', log, (outputs p). repeat split.
    - unfold at_, system. cbn. congruence.
    - refine (init_del errV oneV isEmpty ravel pack p _ 1 _ (or_intror FT)). intros j P N. exact N.
    - pose proof (expect_next ops [] (outputs p) U) as X. rewrite E in X. cbn in X. congruence.
    - intros [].
  Qed.
End Chan.
