(* P_Chan4.v -- what a channel still delivers, in every state of a schedule. *)
From Coq Require Import List Bool Arith Lia.
From Verif Require Import Base M_Chan S_Chan P_Chan P_Chan2 P_Chan3.
Import ListNotations.
Open Scope list_scope.
Open Scope nat_scope.

Section Groups.
  Context {V : Type}.
  Lemma groups_short : forall n (es : list V), length es < n -> groups n es = [].
  Proof. intros n es L. unfold groups. rewrite Nat.div_small by exact L. reflexivity. Qed.
  Lemma groups_app : forall n (a es : list V), 0 < n -> length a = n -> groups n (a ++ es) = a :: groups n es.
  Proof.
    intros n a es P L. unfold groups. rewrite app_length, L. replace (n + length es) with (length es + 1 * n) by lia. rewrite Nat.div_add by lia.
    rewrite Nat.add_comm. cbn [Nat.add seq map]. f_equal.
    - cbn. rewrite <- L, firstn_app, Nat.sub_diag, firstn_all. cbn. apply app_nil_r.
    - rewrite <- seq_shift, map_map. apply map_ext. intros i. f_equal. cbn. rewrite skipn_app, L. rewrite skipn_all2 by lia. cbn. f_equal. lia.
  Qed.
End Groups.

Section Chan.
  Context {V : Type} (errV emptyV oneV : V) (isEmpty : V -> bool) (ravel : V -> list V) (pack : list nat -> list V -> V).
  Local Notation proc := (proc V).
  Local Notation sys := (sys V).
  Local Notation next := (next errV emptyV oneV isEmpty ravel pack).
  Local Notation step := (step errV emptyV oneV isEmpty ravel pack).
  Local Notation crashes := (crashes errV emptyV oneV isEmpty ravel pack).
  Local Notation can_send := (can_send errV emptyV oneV isEmpty ravel pack).
  Local Notation can_recv := (can_recv errV emptyV oneV isEmpty ravel pack).
  Local Notation moved := (moved errV emptyV oneV isEmpty ravel pack).
  Local Notation main_next := (main_next oneV).
  Local Notation apply_call := (apply_call isEmpty).
  Local Notation through := (through errV isEmpty).
  Local Notation outputs := (outputs errV isEmpty ravel pack).

  Definition live (st : astate V) : bool := match st with ALoop | AGot _ | ASend _ => true | _ => false end.
  Definition aout (f : func V) (filt : bool) (st : astate V) (L : lefts V) (vs : list V) : list V :=
    match st with ALoop => through f filt L vs | AGot v => through f filt L (v :: vs) | ASend w => w :: through f filt L vs | AError => [errV] | _ => [] end.
  Definition sout (st : sstate V) (vs : list V) : list V := match st with SLoop => vs | SSend v => v :: vs | SCloseR => [] end.
  Definition rout (sh : list nat) (st : rstate V) (vs : list V) : list V :=
    match st with
    | RLoop acc => map (pack sh) (groups (chunk_size sh) (acc ++ concat (map ravel vs)))
    | RSend acc es => map (pack sh) (groups (chunk_size sh) (acc ++ es ++ concat (map ravel vs)))
    | _ => []
    end.
  Definition cout (sc : list V -> bool -> list V) (st : cstate V) (vs : list V) : list V :=
    match st with
    | CLoop got => skipn (length (sc got false)) (sc (got ++ vs) true)
    | CSend v ws got eof => v :: ws ++ (if eof then [] else skipn (length (sc got false)) (sc (got ++ vs) true))
    | _ => []
    end.
  Inductive Del (s : sys) : left V -> lefts V -> Prop :=
  | d_val o : Del s (LVal o) (Const o)
  | d_closed c : In (Data c) (closed s) -> Del s (LChan c) (Stream [])
  | d_close c : at_ s c (PClose c) -> Del s (LChan c) (Stream [])
  | d_send c vs : at_ s c (PSend c vs) -> Del s (LChan c) (Stream vs)
  | d_repeat c v n : at_ s c (PRepeat c v (Some n)) -> Del s (LChan c) (Stream (repeat v n))
  | d_lines c vs : at_ s c (PLines c vs) -> Del s (LChan c) (Stream vs)
  | d_apply c r l f filt st L vs : at_ s c (PApply c r l f filt st) -> live st = true -> c < r -> Forall (lt c) (lchan l) ->
      Del s (LChan r) (Stream vs) -> Del s l L -> Del s (LChan c) (Stream (aout f filt st L vs))
  | d_apply_end c r l f filt st : at_ s c (PApply c r l f filt st) -> live st = false -> Del s (LChan c) (Stream (aout f filt st (Const None) []))
  | d_scope c r out st vs : at_ s c (PScope c r out st) -> st <> SCloseR -> c < r -> Del s (LChan r) (Stream vs) -> Del s (LChan c) (Stream (sout st vs))
  | d_scope_end c r out : at_ s c (PScope c r out SCloseR) -> Del s (LChan c) (Stream [])
  | d_rho c r sh st vs : at_ s c (PRho c r sh st) -> c < r -> Del s (LChan r) (Stream vs) -> Del s (LChan c) (Stream (rout sh st vs))
  | d_cells c r sc st vs : at_ s c (PCells c r sc st) -> c < r -> Del s (LChan r) (Stream vs) -> Del s (LChan c) (Stream (cout sc st vs)).

  Lemma push_out : forall es c r sh acc vs, length acc < chunk_size sh ->
    exists st, rho_push c r sh acc es = PRho c r sh st /\ rout sh st vs = map (pack sh) (groups (chunk_size sh) (acc ++ es ++ concat (map ravel vs))).
  Proof.
    induction es as [|e es IH]; intros c r sh acc vs L; cbn [rho_push].
    - exists (RLoop acc). auto.
    - destruct (chunk_size sh <=? length acc) eqn:Q; [apply Nat.leb_le in Q; lia|]. destruct (length (acc ++ [e]) =? chunk_size sh) eqn:Q2.
      + eexists. split; [reflexivity|]. cbn [rout]. rewrite <- app_assoc. reflexivity.
      + apply Nat.eqb_neq in Q2. destruct (IH c r sh (acc ++ [e]) vs) as (st & E & R); [rewrite app_length in *; cbn in *; lia|].
        exists st. split; [exact E|]. rewrite R, <- app_assoc. reflexivity.
  Qed.

  Lemma begins_skip : forall (a b : list V), begins a b -> a ++ skipn (length a) b = b.
  Proof. intros a b (c & ->). rewrite skipn_app, skipn_all, Nat.sub_diag. reflexivity. Qed.
  Lemma steady_begins : forall (sc : list V -> bool -> list V) (us got : list V), steady sc -> begins (sc got false) (sc (got ++ us) true).
  Proof.
    intros sc us. induction us as [|u us IH]; intros got ST.
    - rewrite app_nil_r. apply ST.
    - destruct (IH (got ++ [u]) ST) as (d & E). destruct (proj1 (proj2 ST) got u) as (e & E'). exists (e ++ d). rewrite <- app_assoc in E. cbn in E. rewrite E, E', <- app_assoc. reflexivity.
  Qed.
  (* the values that the next string completes, and the rest *)
  Lemma more_out : forall (sc : list V -> bool -> list V) (got : list V) v us, steady sc ->
    skipn (length (sc got false)) (sc (got ++ [v]) false) ++ skipn (length (sc (got ++ [v]) false)) (sc ((got ++ [v]) ++ us) true) = skipn (length (sc got false)) (sc (got ++ v :: us) true).
  Proof.
    intros sc got v us ST. rewrite <- (app_assoc got [v] us). cbn [app]. destruct (proj1 (proj2 ST) got v) as (e & E'). destruct (steady_begins sc us (got ++ [v]) ST) as (d & E). rewrite <- app_assoc in E. cbn in E.
    rewrite E, E'. rewrite (skipn_app (length (sc got false))), (skipn_all (sc got false)), Nat.sub_diag. rewrite (skipn_app (length (sc got false ++ e))), skipn_all, Nat.sub_diag. cbn [skipn app].
    rewrite <- app_assoc, (skipn_app (length (sc got false))), (skipn_all (sc got false)), Nat.sub_diag. reflexivity.
  Qed.
  Lemma cells_del : forall s c r sc got eof (ws us : list V), at_ s c (cells_push c r sc got eof ws) -> c < r -> Del s (LChan r) (Stream us) ->
    Del s (LChan c) (Stream (ws ++ (if eof then [] else skipn (length (sc got false)) (sc (got ++ us) true)))).
  Proof.
    intros s c r sc got eof ws us A CR D. destruct ws as [|w ws]; cbn in A.
    - destruct eof; [apply d_close, A|]. exact (d_cells s c r sc (CLoop got) us A CR D).
    - exact (d_cells s c r sc (CSend w ws got eof) us A CR D).
  Qed.
  Section Fixed.
  Context (reader : nat -> nat) (K : nat -> Prop).
  Local Notation fine := (fine reader K).
  Local Notation good := (good reader K).
  Lemma closed_nil : forall s c L, fine s -> Del s (LChan c) L -> In (Data c) (closed s) -> L = Stream [].
  Proof.
    intros s c L F D I. inversion D; subst; auto; exfalso; match goal with H : at_ s c ?P |- _ => exact (f_own _ _ _ F c P c H eq_refl I) end.
  Qed.
  (* the effect of a step on what a channel delivers *)
  Definition advance (lab : label V) (l : left V) (L L' : lefts V) : Prop :=
    match l with
    | LVal _ => L' = L
    | LChan c => (exists j v vs, lab = Comm c j (Data c) v /\ L = Stream (v :: vs) /\ L' = Stream vs) \/ lab = Eof c (Ctl c) \/
                 ((forall j p v, lab <> Comm c j p v) /\ lab <> Eof c (Ctl c) /\ L' = L)
    end.
  Lemma sender_port : forall s lab s' i j p v, fine s -> step s lab s' -> lab = Comm i j p v -> p = Data i /\ i <> j /\ reader i = j.
  Proof.
    intros s lab s' i j p v F H ->. inversion H as [ps cl i0 j0 p0 v0 k g P Q bs bs' IJ AI AJ NP IP NQ IQ OP| |]; subst.
    pose proof (f_good _ _ _ F i P AI) as GP. pose proof (f_good _ _ _ F j Q AJ) as GQ.
    destruct (send_own errV emptyV oneV isEmpty ravel pack reader K i P p v k GP) as [-> OW]; [eexists; split; eassumption|].
    destruct (recv_port errV emptyV oneV isEmpty ravel pack reader K j Q (Data i) g GQ) as [[X _]|[(r & X & ID)|(r & X & _)]]; [eexists; split; eassumption|discriminate| |discriminate]. injection X as <-.
    repeat split; auto. apply (g_data _ _ _ _ GQ i ID).
  Qed.
  Lemma quiet : forall s lab s' c r L L', fine s -> step s lab s' -> open s (Ctl r) -> reader r = c -> advance lab (LChan r) L L' ->
    (forall v, lab <> Comm r c (Data r) v) -> L' = L.
  Proof.
    intros s lab s' c r L L' F H O R A NC. destruct A as [(j & v & vs & E & -> & ->)|[->|(_ & _ & ->)]]; [| |reflexivity].
    - destruct (sender_port _ _ _ r j (Data r) v F H E) as (_ & _ & RJ). subst. exfalso. apply (NC v). reflexivity.
    - exfalso. inversion H; subst. contradiction.
  Qed.
  Lemma quiet_left : forall s lab s' c l L L', fine s -> step s lab s' -> (forall r, In r (lchan l) -> open s (Ctl r) /\ reader r = c) -> advance lab l L L' ->
    (forall r v, In r (lchan l) -> lab <> Comm r c (Data r) v) -> L' = L.
  Proof.
    intros s lab s' c [o|r] L L' F H O A NC; [exact A|]. destruct (O r) as [O1 O2]; [cbn; auto|]. eapply quiet; [exact F|exact H|exact O1|exact O2|exact A|]. intros v. apply NC. cbn. auto.
  Qed.

  Lemma call_del : forall s c r l f filt lv v L vs, c < r -> Forall (lt c) (lchan l) -> at_ s c (apply_call c r l f filt lv v) -> no_panic f -> lv = lhead L ->
    Del s (LChan r) (Stream vs) -> Del s l (ltail L) -> Del s (LChan c) (Stream (through f filt L (v :: vs))).
  Proof.
    intros s c r l f filt lv v L vs CR CL A NP -> D DL. unfold M_Chan.apply_call in A. cbn [S_Chan.through]. destruct (f (lhead L) v) as [w| |] eqn:E.
    - destruct (filt && isEmpty w); cbn [app].
      + exact (d_apply s c r l f filt ALoop (ltail L) vs A eq_refl CR CL D DL).
      + exact (d_apply s c r l f filt (ASend w) (ltail L) vs A eq_refl CR CL D DL).
    - exact (d_apply_end s c r l f filt AError A eq_refl).
    - exfalso. exact (NP _ _ E).
  Qed.
  Lemma moved_not : forall s s' c P P' lab, moved s s' c P P' lab -> next P = Done -> still lab c.
  Proof. intros s s' c P P' lab M E. destruct M as [lab S _|j pt v Q g NE (bs & N & _)|i pt v g Q k NE (bs & N & _)|pt g (bs & N & _)|pt N]; auto; rewrite N in E; discriminate. Qed.

  (* A step of goroutine c: c sent, c received on its own control port or data port, ... *)
  Lemma del_step : forall s lab s', fine s -> step s lab s' -> forall l L, Del s l L -> exists L', Del s' l L' /\ advance lab l L L'.
  Proof.
    intros s lab s' F H l L D. pose proof (step_closed _ _ _ _ _ _ _ _ _ H) as CL.
    assert (KEEPC : forall p, In p (closed s) -> In p (closed s')) by (intros p I; rewrite CL; destruct lab; auto; right; exact I).
    assert (ST : forall c, still lab c -> (forall j p v, lab <> Comm c j p v) /\ lab <> Eof c (Ctl c)).
    { intros c S. split; [intros j p v ->|intros ->]; cbn in S; tauto. }
    assert (QU : forall c vs, still lab c -> advance lab (LChan c) vs vs) by (intros c vs S; right; right; destruct (ST c S); auto).
    (* the sender of a message that c receives *)
    assert (FROM : forall i c pt v g P Q k, at_ s c P -> can_recv P pt g -> at_ s i Q -> can_send Q pt v k -> pt = Data i).
    { intros i c pt v g P Q k _ _ AQ CS. apply (send_own errV emptyV oneV isEmpty ravel pack reader K i Q pt v k (f_good _ _ _ F i Q AQ) CS). }
    induction D as [o|c I|c A|c vs A|c v n A|c vs A|c r l f filt st L vs A LV CR CLT D IHr DL IHl|c r l f filt st A LV|c r out st vs A NS CR D IHr|c r out A|c r sh st vs A CR D IHr|c r sc st vs A CR D IHr].
    - exists (Const o). split; [constructor|reflexivity].
    - exists (Stream []). split; [apply d_closed, KEEPC, I|]. right. destruct lab as [i j p v|j p|i p]; [|destruct (port_dec p (Ctl c)) as [->|NE]; [destruct (Nat.eq_dec j c) as [->|NJ]; [left; reflexivity|]|]|].
      + right. split; [|split; [discriminate|reflexivity]]. intros j0 p0 v0 E. injection E as -> -> -> ->.
        inversion H as [ps cl i0 j1 p1 v1 k g P Q bs bs' IJ AI AJ NP IP NQ IQ OP| |]; subst. pose proof (f_good _ _ _ F c P AI) as GP.
        destruct (send_own errV emptyV oneV isEmpty ravel pack reader K c P p0 v0 k GP) as [-> OW]; [eexists; split; eassumption|]. contradiction.
      + right. repeat split; try discriminate. intros E. injection E as ->. contradiction.
      + right. repeat split; try discriminate. intros E. injection E as -> ->. contradiction.
      + right. repeat split; discriminate.
    - destruct (step_view _ _ _ _ _ _ _ _ _ H c _ A) as (P' & A' & M).
      destruct M as [lab S ->|j pt v Q g NE (bs & N & _) OP AQ CRV|i pt v g Q k NE (bs & N & _) OP -> AQ CS|pt g (bs & N & _) IC ->|pt N OP]; try discriminate.
      + exists (Stream []). split; [apply d_close, A'|apply QU, S].
      + cbn in N. injection N as <- <-. exists (Stream []). split; [apply d_closed; rewrite CL; left; reflexivity|]. right. right. repeat split; discriminate.
    - destruct (step_view _ _ _ _ _ _ _ _ _ H c _ A) as (P' & A' & M).
      destruct vs as [|u vs]; [exfalso; apply (g_wf _ _ _ _ (f_good _ _ _ F c _ A)); reflexivity|].
      destruct M as [lab S ->|j pt v Q g NE (bs & N & I) OP AQ CRV|i pt v g Q k NE CRV OP -> AQ CS|pt g (bs & N & I) IC ->|pt N OP]; try discriminate.
      + exists (Stream (u :: vs)). split; [apply d_send, A'|apply QU, S].
      + cbn in N. injection N as <-. destruct I as [I|[I|[]]]; try discriminate. injection I as <- <- <-. exists (Stream vs). split.
        * unfold sendall in A'. destruct vs; [apply d_close, A'|apply d_send, A'].
        * left. exists j, u, vs. auto.
      + pose proof (FROM _ _ _ _ _ _ _ _ A CRV AQ CS) as ->. destruct CRV as (bs & N & I). cbn in N. injection N as <-. destruct I as [I|[I|[]]]; try discriminate.
      + cbn in N. injection N as <-. destruct I as [I|[I|[]]]; try discriminate. injection I as <- <-. exists (Stream []). split; [apply d_close, A'|]. right. left. reflexivity.
    - destruct (step_view _ _ _ _ _ _ _ _ _ H c _ A) as (P' & A' & M). pose proof (g_wf _ _ _ _ (f_good _ _ _ F c _ A)) as W. cbn in W. destruct W as (m & E & M1). injection E as <-.
      destruct M as [lab S ->|j pt u Q g NE (bs & N & I) OP AQ CRV|i pt u g Q k NE CRV OP -> AQ CS|pt g (bs & N & I) IC ->|pt N OP]; try discriminate.
      + exists (Stream (repeat v n)). split; [apply d_repeat, A'|apply QU, S].
      + cbn in N. injection N as <-. destruct I as [I|[I|[]]]; try discriminate. injection I as <- <- <-. exists (Stream (repeat v (n - 1))). split.
        * destruct (n <=? 1) eqn:Q1; [|apply d_repeat, A']. apply Nat.leb_le in Q1. replace (n - 1) with 0 by lia. apply d_close, A'.
        * left. exists j, v, (repeat v (n - 1)). split; [reflexivity|]. split; [|reflexivity]. destruct n; [lia|]. cbn. rewrite Nat.sub_0_r. reflexivity.
      + pose proof (FROM _ _ _ _ _ _ _ _ A CRV AQ CS) as ->. destruct CRV as (bs & N & I). cbn in N. injection N as <-. destruct I as [I|[I|[]]]; try discriminate.
      + cbn in N. injection N as <-. destruct I as [I|[I|[]]]; try discriminate. injection I as <- <-. exists (Stream []). split; [apply d_close, A'|]. right. left. reflexivity.
    - destruct (step_view _ _ _ _ _ _ _ _ _ H c _ A) as (P' & A' & M).
      destruct M as [lab S ->|j pt v Q g NE (bs & N & I) OP AQ CRV|i pt v g Q k NE CRV OP -> AQ CS|pt g (bs & N & I) IC ->|pt N OP].
      + exists (Stream vs). split; [apply d_lines, A'|apply QU, S].
      + destruct vs as [|u vs]; cbn in N; [discriminate|]. injection N as <-. destruct I as [I|[I|[]]]; try discriminate. injection I as <- <- <-. exists (Stream vs). split; [apply d_lines, A'|].
        left. exists j, u, vs. auto.
      + pose proof (FROM _ _ _ _ _ _ _ _ A CRV AQ CS) as ->. destruct CRV as (bs & N & I). destruct vs as [|u vs]; cbn in N; [discriminate|]. injection N as <-. destruct I as [I|[I|[]]]; try discriminate.
      + destruct vs as [|u vs]; cbn in N; [discriminate|]. injection N as <-. destruct I as [I|[I|[]]]; try discriminate. injection I as <- <-. exists (Stream vs). split; [apply d_lines, A'|]. right. left. reflexivity.
      + destruct vs as [|u vs]; cbn in N; [|discriminate]. injection N as <- <-. exists (Stream []). split; [apply d_closed; rewrite CL; left; reflexivity|]. right. right. repeat split; discriminate.
    - (* Apply, running *)
      destruct (step_view _ _ _ _ _ _ _ _ _ H c _ A) as (P' & A' & M). pose proof (f_good _ _ _ F c _ A) as G.
      destruct IHr as (Lr & Dr' & ADr). destruct IHl as (Ll & Dl' & ADl). destruct (g_wf _ _ _ _ G) as (NP & NR & W3).
      assert (OC : forall x, In x (r :: lchan l) -> open s (Ctl x) /\ reader x = c).
      { intros x I. assert (I' : In x (ctls (PApply c r l f filt st))) by (destruct st; cbn in LV |- *; try discriminate; exact I). split; [exact (f_ctl _ _ _ F c _ x A I')|exact (g_ctl _ _ _ _ G x I')]. }
      assert (Or : open s (Ctl r) /\ reader r = c) by (apply OC; left; reflexivity). destruct Or as [Or Rr].
      assert (Ol : forall x, In x (lchan l) -> open s (Ctl x) /\ reader x = c) by (intros x I; apply OC; right; exact I).
      assert (NEQ : forall x, In x (r :: lchan l) -> x <> c) by (rewrite Forall_forall in CLT; intros x [<-|I]; [lia|specialize (CLT x I); lia]).
      destruct M as [lab S ->|j pt w Q g NE (bs & N & I) OP AQ CRV|i pt w g Q k NE CRV OP -> AQ CS|pt g (bs & N & I) IC ->|pt N OP].
      + assert (Lr = Stream vs) as -> by (eapply quiet; [exact F|exact H|exact Or|exact Rr|exact ADr|intros v ->; cbn in S; tauto]).
        assert (Ll = L) as -> by (eapply quiet_left; [exact F|exact H|exact Ol|exact ADl|intros x v _ ->; cbn in S; tauto]).
        exists (Stream (aout f filt st L vs)). split; [eapply d_apply; eassumption|apply QU, S].
      + assert (Lr = Stream vs) as -> by (eapply quiet; [exact F|exact H|exact Or|exact Rr|exact ADr|intros v E; injection E as E _ _ _; apply (NEQ r); [left; reflexivity|congruence]]).
        assert (Ll = L) as -> by (eapply quiet_left; [exact F|exact H|exact Ol|exact ADl|intros x v I' E; injection E as E _ _ _; apply (NEQ x); [right; exact I'|congruence]]).
        destruct st as [|v|w0| | |]; cbn in LV; try discriminate; cbn in N.
        * injection N as <-. destruct I as [I|[I|[]]]; discriminate.
        * destruct l; [discriminate|]. injection N as <-. destruct I as [I|[]]; discriminate.
        * injection N as <-. destruct I as [I|[]]. injection I as <- <- <-. exists (Stream (through f filt L vs)). split.
          -- exact (d_apply s' c r l f filt ALoop L vs A' eq_refl CR CLT Dr' Dl').
          -- left. exists j, w0, (through f filt L vs). auto.
      + pose proof (FROM _ _ _ _ _ _ _ _ A CRV AQ CS) as ->. destruct CRV as (bs & N & I).
        destruct st as [|v|w0| | |]; cbn in LV; try discriminate; cbn in N.
        * injection N as <-. destruct I as [I|[I|[]]]; try discriminate. injection I as -> <-.
          assert (Ll = L) as -> by (eapply quiet_left; [exact F|exact H|exact Ol|exact ADl|intros x v I' E; injection E as -> _; exact (NR I')]).
          destruct ADr as [(j & v & us & E & EL & ->)|[E|(NC & _)]]; [|discriminate|exfalso; eapply NC; reflexivity]. injection E as <- <-. injection EL as ->.
          exists (Stream (through f filt L (w :: us))). split; [|right; right; split; [intros j p u E; injection E as E _ _ _; lia|split; [discriminate|reflexivity]]].
          destruct l as [lv|lc].
          -- inversion DL; subst. eapply call_del; [exact CR|exact CLT|exact A'|exact NP|reflexivity|exact Dr'|cbn; constructor].
          -- exact (d_apply s' c i (LChan lc) f filt (AGot w) L us A' eq_refl CR CLT Dr' Dl').
        * destruct l as [lv|lc]; [discriminate|]. injection N as <-. destruct I as [I|[]]. injection I as -> <-.
          assert (Lr = Stream vs) as -> by (eapply quiet; [exact F|exact H|exact Or|exact Rr|exact ADr|intros u E; injection E as E _ _; apply NR; cbn; auto]).
          destruct ADl as [(j & u & us & E & EL & ->)|[E|(NC & _)]]; [|discriminate|exfalso; eapply NC; reflexivity]. injection E as <- <-. subst L.
          exists (Stream (through f filt (Stream (w :: us)) (v :: vs))). split; [|right; right; split; [intros j p u E; injection E as E _ _ _; apply (NEQ i); cbn; auto|split; [discriminate|reflexivity]]].
          eapply call_del; [exact CR|exact CLT|exact A'|exact NP|reflexivity|exact Dr'|exact Dl'].
        * injection N as <-. destruct I as [I|[]]. discriminate.
      + assert (Lr = Stream vs) as -> by (eapply quiet; [exact F|exact H|exact Or|exact Rr|exact ADr|discriminate]).
        assert (Ll = L) as -> by (eapply quiet_left; [exact F|exact H|exact Ol|exact ADl|discriminate]).
        destruct st as [|v|w0| | |]; cbn in LV; try discriminate; cbn in N.
        * injection N as <-. destruct I as [I|[I|[]]]; injection I as <- <-.
          -- exists (Stream []). split; [exact (d_apply_end s' c r l f filt (ACloseR true) A' eq_refl)|right; left; reflexivity].
          -- pose proof (closed_nil s r _ F D IC) as E. injection E as ->. exists (Stream []). split; [|right; right; repeat split; discriminate].
             destruct l; [apply d_close, A'|exact (d_apply_end s' c r _ f filt ACloseL A' eq_refl)].
        * destruct l as [lv|lc]; [discriminate|]. injection N as <-. destruct I as [I|[]]. injection I as <- <-.
          pose proof (closed_nil s lc _ F DL IC) as ->.
          exists (Stream (through f filt (Stream []) (v :: vs))). split; [|right; right; repeat split; discriminate].
          eapply call_del; [exact CR|exact CLT|exact A'|exact NP|reflexivity|exact Dr'|exact Dl'].
        * injection N as <-. destruct I as [I|[]]. discriminate.
      + destruct st as [|v|w0| | |]; cbn in LV; try discriminate; cbn in N; try discriminate. destruct l; discriminate.
    - (* Apply, ending *)
      destruct (step_view _ _ _ _ _ _ _ _ _ H c _ A) as (P' & A' & M).
      assert (E0 : exists vs, aout f filt st (Const None) [] = vs) by eauto. destruct E0 as (vs0 & E0). destruct (g_wf _ _ _ _ (f_good _ _ _ F c _ A)) as (NP & NR & W3).
      destruct M as [lab S ->|j pt w Q g NE (bs & N & I) OP AQ CRV|i pt w g Q k NE (bs & N & I) OP -> AQ CS|pt g (bs & N & I) IC ->|pt N OP].
      + exists (Stream (aout f filt st (Const None) [])). split; [eapply d_apply_end; eassumption|apply QU, S].
      + destruct st as [|v|w0| |b|]; cbn in LV; try discriminate; cbn in N; try discriminate; [|destruct l; discriminate].
        injection N as <-. destruct I as [I|[]]. injection I as <- <- <-. exists (Stream []). split; [exact (d_apply_end s' c r l f filt (ACloseR false) A' eq_refl)|].
        left. exists j, errV, []. auto.
      + destruct st as [|v|w0| |b|]; cbn in LV; try discriminate; cbn in N; try discriminate; [|destruct l; discriminate]. injection N as <-. destruct I as [I|[]]. discriminate.
      + destruct st as [|v|w0| |b|]; cbn in LV; try discriminate; cbn in N; try discriminate; [|destruct l; discriminate]. injection N as <-. destruct I as [I|[]]. discriminate.
      + exists (Stream []). split.
        * destruct st as [|v|w0| |b|]; cbn in LV; try discriminate; cbn in N; try discriminate.
          -- injection N as _ <-. destruct l; [apply d_close, A'|]. destruct b; [exact (d_apply_end s' c r _ f filt ACloseL A' eq_refl)|apply d_close, A'].
          -- destruct l; [discriminate|]. injection N as _ <-. apply d_close, A'.
        * right. right. repeat split; try discriminate. destruct st as [|v|w0| |b|]; cbn in LV; try discriminate; cbn in N; try discriminate; reflexivity.
    - (* Scope *)
      destruct (step_view _ _ _ _ _ _ _ _ _ H c _ A) as (P' & A' & M). pose proof (f_good _ _ _ F c _ A) as G.
      destruct IHr as (Lr & Dr' & ADr).
      assert (Or : open s (Ctl r)) by (apply (f_ctl _ _ _ F c _ r A); cbn; auto). assert (Rr : reader r = c) by (apply (g_ctl _ _ _ _ G r); cbn; auto).
      destruct M as [lab S ->|j pt w Q g NE (bs & N & I) OP AQ CRV|i pt w g Q k NE CRV OP -> AQ CS|pt g (bs & N & I) IC ->|pt N OP].
      + assert (Lr = Stream vs) as -> by (eapply quiet; [exact F|exact H|exact Or|exact Rr|exact ADr|intros v ->; cbn in S; tauto]).
        exists (Stream (sout st vs)). split; [eapply d_scope; eassumption|apply QU, S].
      + assert (Lr = Stream vs) as -> by (eapply quiet; [exact F|exact H|exact Or|exact Rr|exact ADr|intros v E; injection E as E _ _ _; lia]).
        destruct st as [|v|]; cbn in N; try discriminate; injection N as <-; destruct I as [I|[I|[]]]; try discriminate. injection I as <- <- <-.
        exists (Stream vs). split; [exact (d_scope s' c r out SLoop vs A' ltac:(discriminate) CR Dr')|]. left. exists j, v, vs. auto.
      + pose proof (FROM _ _ _ _ _ _ _ _ A CRV AQ CS) as ->. destruct CRV as (bs & N & I).
        destruct st as [|v|]; cbn in N; try discriminate; injection N as <-; destruct I as [I|[I|[]]]; try discriminate. injection I as -> <-.
        destruct ADr as [(j & v & us & E & EL & ->)|[E|(NC & _)]]; [|discriminate|exfalso; eapply NC; reflexivity]. injection E as <- <-. injection EL as ->.
        exists (Stream (w :: us)). split; [exact (d_scope s' c i _ (SSend w) us A' ltac:(discriminate) CR Dr')|]. right. right. split; [intros j p u E; injection E as E _ _ _; lia|split; [discriminate|reflexivity]].
      + assert (Lr = Stream vs) as -> by (eapply quiet; [exact F|exact H|exact Or|exact Rr|exact ADr|discriminate]).
        destruct st as [|v|]; cbn in N; try discriminate; injection N as <-; destruct I as [I|[I|[]]]; try discriminate; injection I as <- <-.
        * exists (Stream []). split; [exact (d_scope_end s' c r out A')|right; left; reflexivity].
        * pose proof (closed_nil s r _ F D IC) as E. injection E as ->. exists (Stream []). split; [apply d_close, A'|right; right; repeat split; discriminate].
        * exists (Stream []). split; [exact (d_scope_end s' c r out A')|right; left; reflexivity].
      + destruct st as [|v|]; cbn in N; try discriminate. exfalso. apply NS. reflexivity.
    - destruct (step_view _ _ _ _ _ _ _ _ _ H c _ A) as (P' & A' & M).
      destruct M as [lab S ->|j pt w Q g NE (bs & N & I) OP AQ CRV|i pt w g Q k NE (bs & N & I) OP -> AQ CS|pt g (bs & N & I) IC ->|pt N OP]; try discriminate.
      + exists (Stream []). split; [eapply d_scope_end; exact A'|apply QU, S].
      + cbn in N. injection N as <- <-. exists (Stream []). split; [apply d_close, A'|right; right; repeat split; discriminate].
    - (* Reshape *)
      destruct (step_view _ _ _ _ _ _ _ _ _ H c _ A) as (P' & A' & M). pose proof (f_good _ _ _ F c _ A) as G. pose proof (g_wf _ _ _ _ G) as W. cbn in W.
      destruct IHr as (Lr & Dr' & ADr).
      assert (Or : open s (Ctl r)) by (apply (f_ctl _ _ _ F c _ r A); cbn; auto). assert (Rr : reader r = c) by (apply (g_ctl _ _ _ _ G r); cbn; auto).
      assert (KI : open s (Ctl c)) by (apply (f_k _ _ _ F); apply (g_rho _ _ _ _ G); left; exists c, r, sh, st; reflexivity).
      destruct M as [lab S ->|j pt w Q g NE (bs & N & I) OP AQ CRV|i pt w g Q k NE CRV OP -> AQ CS|pt g (bs & N & I) IC ->|pt N OP].
      + assert (Lr = Stream vs) as -> by (eapply quiet; [exact F|exact H|exact Or|exact Rr|exact ADr|intros v ->; cbn in S; tauto]).
        exists (Stream (rout sh st vs)). split; [eapply d_rho; eassumption|apply QU, S].
      + assert (Lr = Stream vs) as -> by (eapply quiet; [exact F|exact H|exact Or|exact Rr|exact ADr|intros v E; injection E as E _ _ _; lia]).
        destruct st as [acc|acc es|acc es|]; cbn in N; try contradiction; injection N as <-; destruct I as [I|[I|[]]]; try discriminate. injection I as <- <- <-. destruct W as [W1 W2].
        destruct (push_out es c r sh [] vs W2) as (st' & E & R). rewrite E in A'.
        exists (Stream (rout sh st' vs)). split; [exact (d_rho s' c r sh st' vs A' CR Dr')|]. left. exists j, (pack sh acc), (rout sh st' vs). repeat split; auto. f_equal. rewrite R. cbn [rout app].
        rewrite groups_app by (auto; lia). reflexivity.
      + pose proof (FROM _ _ _ _ _ _ _ _ A CRV AQ CS) as ->. destruct CRV as (bs & N & I).
        destruct st as [acc|acc es|acc es|]; cbn in N; try contradiction; injection N as <-; destruct I as [I|[I|[]]]; try discriminate. injection I as -> <-.
        destruct ADr as [(j & v & us & E & EL & ->)|[E|(NC & _)]]; [|discriminate|exfalso; eapply NC; reflexivity]. injection E as <- <-. injection EL as ->.
        destruct (push_out (ravel w) c i sh acc us W) as (st' & E & R). rewrite E in A'.
        exists (Stream (rout sh st' us)). split; [exact (d_rho s' c i sh st' us A' CR Dr')|]. right. right. split; [intros j p u Q0; injection Q0 as Q0 _ _ _; lia|split; [discriminate|]]. rewrite R. reflexivity.
      + assert (Lr = Stream vs) as -> by (eapply quiet; [exact F|exact H|exact Or|exact Rr|exact ADr|discriminate]).
        destruct st as [acc|acc es|acc es|]; cbn in N; try contradiction; injection N as <-; destruct I as [I|[I|[]]]; try discriminate; injection I as <- <-.
        * contradiction.
        * pose proof (closed_nil s r _ F D IC) as E. injection E as ->. exists (Stream []). split; [apply d_close, A'|]. right. right. repeat split; try discriminate. cbn. rewrite app_nil_r, groups_short by exact W. reflexivity.
        * contradiction.
      + destruct st; cbn in N; try discriminate; contradiction.
    - (* Cells *)
      destruct (step_view _ _ _ _ _ _ _ _ _ H c _ A) as (P' & A' & M). pose proof (f_good _ _ _ F c _ A) as G. destruct (g_wf _ _ _ _ G) as [SY W]. cbn in W.
      assert (KI : open s (Ctl c)) by (apply (f_k _ _ _ F); apply (g_rho _ _ _ _ G); right; exists c, r, sc, st; reflexivity).
      destruct IHr as (Lr & Dr' & ADr).
      assert (Or : open s (Ctl r)) by (apply (f_ctl _ _ _ F c _ r A); cbn; auto). assert (Rr : reader r = c) by (apply (g_ctl _ _ _ _ G r); cbn; auto).
      destruct M as [lab S ->|j pt w Q g NE (bs & N & I) OP AQ CRV|i pt w g Q k NE CRV OP -> AQ CS|pt g (bs & N & I) IC ->|pt N OP].
      + assert (Lr = Stream vs) as -> by (eapply quiet; [exact F|exact H|exact Or|exact Rr|exact ADr|intros v ->; cbn in S; tauto]).
        exists (Stream (cout sc st vs)). split; [eapply d_cells; eassumption|apply QU, S].
      + assert (Lr = Stream vs) as -> by (eapply quiet; [exact F|exact H|exact Or|exact Rr|exact ADr|intros v E; injection E as E _ _ _; lia]).
        destruct st as [got|v ws got eof|got| |]; cbn in N; try contradiction; injection N as <-; destruct I as [I|[I|[]]]; try discriminate. injection I as <- <- <-.
        eexists. split; [exact (cells_del s' c r sc got eof ws vs A' CR Dr')|]. left. eexists j, v, _. split; [reflexivity|split; reflexivity].
      + pose proof (FROM _ _ _ _ _ _ _ _ A CRV AQ CS) as ->. destruct CRV as (bs & N & I).
        destruct st as [got|v ws got eof|got| |]; cbn in N; try contradiction; injection N as <-; destruct I as [I|[I|[]]]; try discriminate. injection I as -> <-.
        destruct ADr as [(j & v & us & E & EL & ->)|[E|(NC & _)]]; [|discriminate|exfalso; eapply NC; reflexivity]. injection E as <- <-. injection EL as ->.
        eexists. split; [exact (cells_del s' c i sc (got ++ [w]) false _ us A' CR Dr')|]. right. right. split; [intros j p u E; injection E as E _ _ _; lia|split; [discriminate|]].
        f_equal. cbn [cout]. apply more_out, SY.
      + assert (Lr = Stream vs) as -> by (eapply quiet; [exact F|exact H|exact Or|exact Rr|exact ADr|discriminate]).
        destruct st as [got|v ws got eof|got| |]; cbn in N; try contradiction; injection N as <-; destruct I as [I|[I|[]]]; try discriminate; injection I as <- <-.
        * contradiction.
        * pose proof (closed_nil s r _ F D IC) as E. injection E as ->. eexists. split; [exact (cells_del s' c r sc got true _ [] A' CR Dr')|right; right; repeat split; try discriminate].
          cbn [cout]. rewrite !app_nil_r. reflexivity.
        * contradiction.
      + destruct st; cbn in N; try discriminate; contradiction.
  Qed.

  (* ---------- a goroutine that waits for a value does not wait for ever ---------- *)
  Definition moves (s : sys) : Prop := exists lab s', step s lab s'.
  Lemma comm_moves : forall s i j P Q p v k g, at_ s i P -> at_ s j Q -> i <> j -> can_send P p v k -> can_recv Q p g -> moves s.
  Proof.
    intros [ps cl] i j P Q p v k g AI AJ NE (bs & NP & IP) (bs' & NQ & IQ). destruct (in_dec port_dec p cl) as [C|O].
    - do 2 eexists. eapply st_eof; eassumption.
    - do 2 eexists. eapply st_comm; eassumption.
  Qed.
  Lemma eof_moves : forall s j Q p g, at_ s j Q -> can_recv Q p g -> In p (closed s) -> moves s.
  Proof. intros [ps cl] j Q p g AJ (bs & NQ & IQ) C. do 2 eexists. eapply st_eof; eassumption. Qed.
  Lemma close_moves : forall s i P p k, fine s -> at_ s i P -> next P = DoClose p k -> moves s.
  Proof.
    intros [ps cl] i P p k F A N. destruct (in_dec port_dec p cl) as [C|O].
    - exfalso. apply (fine_safe errV emptyV oneV isEmpty ravel pack reader K _ F). eapply cr_close; eassumption.
    - do 2 eexists. eapply st_close; eassumption.
  Qed.
  Ltac sends := eexists; split; [reflexivity|]; cbn; auto.
  Lemma waiting_moves : forall s, fine s -> forall l L, Del s l L -> forall c, l = LChan c -> forall j Q g, at_ s j Q -> can_recv Q (Data c) g -> j <> c -> moves s.
  Proof.
    intros s F l L D. induction D as [o|c I|c A|c vs A|c v n A|c vs A|c r l f filt st L vs A LV CR CLT D IHr DL IHl|c r l f filt st A LV|c r out st vs A NS CR D IHr|c r out A|c r sh st vs A CR D IHr|c r sc st vs A CR D IHr];
      intros c0 E j Q g AJ CRV NE; [discriminate|..]; injection E as <-.
    - eapply eof_moves; eassumption.
    - eapply close_moves; [exact F|exact A|reflexivity].
    - destruct vs as [|u vs]; [exfalso; apply (g_wf _ _ _ _ (f_good _ _ _ F c _ A)); reflexivity|]. eapply (comm_moves s c j _ Q (Data c) u); [exact A|exact AJ|auto|sends|exact CRV].
    - eapply (comm_moves s c j _ Q (Data c) v); [exact A|exact AJ|auto|sends|exact CRV].
    - destruct vs as [|u vs]; [eapply close_moves; [exact F|exact A|reflexivity]|]. eapply (comm_moves s c j _ Q (Data c) u); [exact A|exact AJ|auto|sends|exact CRV].
    - destruct st as [|v|w| | |]; try discriminate.
      + eapply (IHr r eq_refl c _ _ A); [sends|lia].
      + destruct (g_wf _ _ _ _ (f_good _ _ _ F c _ A)) as (NP & NR & W3). destruct l as [lv|lc]; [exfalso; apply W3; reflexivity|]. inversion CLT; subst.
        eapply (IHl lc eq_refl c _ _ A); [sends|lia].
      + eapply (comm_moves s c j _ Q (Data c) w); [exact A|exact AJ|auto|sends|exact CRV].
    - destruct (g_wf _ _ _ _ (f_good _ _ _ F c _ A)) as (NP & NR & W3). destruct st as [|v|w| |b|]; try discriminate.
      + eapply (comm_moves s c j _ Q (Data c) errV); [exact A|exact AJ|auto|sends|exact CRV].
      + eapply close_moves; [exact F|exact A|reflexivity].
      + destruct l as [lv|lc]; [exfalso; apply W3; reflexivity|]. eapply close_moves; [exact F|exact A|reflexivity].
    - destruct st as [|v|]; [|eapply (comm_moves s c j _ Q (Data c) v); [exact A|exact AJ|auto|sends|exact CRV]|exfalso; apply NS; reflexivity].
      eapply (IHr r eq_refl c _ _ A); [sends|lia].
    - eapply close_moves; [exact F|exact A|reflexivity].
    - pose proof (g_wf _ _ _ _ (f_good _ _ _ F c _ A)) as W. cbn in W. destruct st as [acc|acc es|acc es|]; try contradiction.
      + eapply (IHr r eq_refl c _ _ A); [sends|lia].
      + eapply (comm_moves s c j _ Q (Data c) (pack sh acc)); [exact A|exact AJ|auto|sends|exact CRV].
    - destruct (g_wf _ _ _ _ (f_good _ _ _ F c _ A)) as [SY W]. destruct st as [got|v ws got eof|got| |]; try contradiction; [|eapply (comm_moves s c j _ Q (Data c) v); [exact A|exact AJ|auto|sends|exact CRV]].
      eapply (IHr r eq_refl c _ _ A); [sends|lia].
  Qed.
  End Fixed.

  (* ---------- the start ---------- *)
  Lemma tail_at : forall (gs : list proc) c s, (forall j P, nth_error gs j = Some P -> at_ s (c + j) P) -> forall j P, nth_error (tl gs) j = Some P -> at_ s (S c + j) P.
  Proof. intros [|G gs] c s A j P E; [destruct j; discriminate|]. specialize (A (S j) P E). replace (c + S j) with (S c + j) in A by lia. exact A. Qed.
  Lemma init_del : forall (p : plan V) s c, (forall j P, nth_error (goroutines c p) j = Some P -> at_ s (c + j) P) -> (plain p \/ fits p) -> Del s (LChan c) (Stream (outputs p)).
  Proof.
    induction p as [vs|vs|v n|f lv filt p IH|f filt pl IHl p IH|p IH|sh p IH|sc p IH]; intros s c A PF; cbn [S_Chan.outputs];
      pose proof (A 0) as A0; cbn [goroutines nth_error] in A0; specialize (A0 _ eq_refl); rewrite Nat.add_0_r in A0;
      pose proof (tail_at _ _ _ A) as AS; cbn [goroutines tl] in AS.
    - unfold sendall in A0. destruct vs; [apply d_close, A0|apply d_send, A0].
    - apply d_lines, A0.
    - assert (N1 : 1 <= n) by (destruct PF as [H|H]; exact H). unfold source in A0. destruct (Z.eqb _ _) eqn:Z0; [apply Z.eqb_eq in Z0; lia|]. destruct (Z.ltb _ _) eqn:Z1; [apply Z.ltb_lt in Z1; lia|]. rewrite Znat.Nat2Z.id in A0. apply d_repeat, A0.
    - apply (d_apply s c (S c) (LVal lv) f filt ALoop (Const lv) (outputs p) A0 eq_refl); [lia|constructor| |constructor]. apply IH; [exact AS|]. destruct PF as [[_ H]|[_ [H|[_ H]]]]; auto.
    - apply (d_apply s c (S c) (LChan (S c + count p)) f filt ALoop (Stream (outputs pl)) (outputs p) A0 eq_refl); [lia|constructor; [lia|constructor]| |].
      + apply IH; [|destruct PF as [[_ [_ H]]|[_ [_ [H|[_ H]]]]]; auto]. intros j P E. apply AS. rewrite nth_error_app1; [exact E|]. apply nth_error_Some. congruence.
      + apply IHl; [|left; destruct PF as [[_ [H _]]|[_ [H _]]]; exact H]. intros j P E. replace (S c + count p + j) with (S c + (count p + j)) by lia. apply AS.
        rewrite nth_error_app2 by (rewrite goroutines_length; lia). rewrite goroutines_length. replace (count p + j - count p) with j by lia. exact E.
    - apply (d_scope s c (S c) [] SLoop (outputs p) A0); [discriminate|lia|]. apply IH; [exact AS|exact PF].
    - apply (d_rho s c (S c) sh (RLoop []) (outputs p) A0); [lia|]. apply IH; [exact AS|]. destruct PF as [[]|[_ H]]; auto.
    - destruct PF as [[]|[ST PF]]. assert (Q : sc (outputs p) true = cout sc (CLoop []) (outputs p)) by (cbn; rewrite (proj1 ST); reflexivity). rewrite Q.
      apply (d_cells s c (S c) sc (CLoop []) (outputs p) A0); [lia|]. apply IH; [exact AS|]. auto.
  Qed.
End Chan.
