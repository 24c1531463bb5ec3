(* P_Chan2.v -- the goroutines of a channel expression are well connected. *)
From Coq Require Import List Bool Arith Lia.
From Verif Require Import Base M_Chan S_Chan P_Chan.
Import ListNotations.
Open Scope list_scope.
Open Scope nat_scope.

Section Init.
  Context {V : Type} (oneV : V).
  Local Notation proc := (proc V).
  Local Notation plan := (plan V).

  Lemma NoDup_app_intro : forall A (a b : list A), NoDup a -> NoDup b -> (forall x, In x a -> In x b -> False) -> NoDup (a ++ b).
  Proof.
    intros A a b NA NB D. induction NA as [|x a I NA IH]; [exact NB|]. cbn. constructor.
    - intros X. apply in_app_iff in X. destruct X as [X|X]; [exact (I X)|]. apply (D x); [left; reflexivity|exact X].
    - apply IH. intros y Y Z. apply (D y); [right; exact Y|exact Z].
  Qed.
  Lemma goroutines_length : forall (p : plan) c, length (goroutines c p) = count p.
  Proof. induction p; intros c; cbn [goroutines count length]; rewrite ?app_length; auto. Qed.
  Lemma count_pos : forall p : plan, 1 <= count p.
  Proof. destruct p; cbn; lia. Qed.
  (* the channels that are read: all but the first *)
  Lemma goroutines_datas : forall (p : plan) c,
    NoDup (concat (map datas (goroutines c p))) /\ forall r, In r (concat (map datas (goroutines c p))) -> c < r < c + count p.
  Proof.
    induction p as [vs|vs|v n|f lv filt p IH|f filt pl IHl p IH|p IH|sh p IH|sc p IH]; intros c; cbn [goroutines map concat datas lchan app count].
    - unfold sendall. destruct vs; cbn; (split; [constructor|intros r []]).
    - split; [constructor|intros r []].
    - unfold source. destruct (Z.eqb _ _); cbn; (split; [constructor|intros r []]).
    - destruct (IH (S c)) as [N R]. split; [constructor; [intros I; specialize (R _ I); lia|exact N]|]. intros r [<-|I]; [pose proof (count_pos p); lia|]. specialize (R _ I). lia.
    - rewrite map_app, concat_app. destruct (IH (S c)) as [N R], (IHl (S c + count p)) as [N' R']. split.
      + constructor.
        * cbn. intros [I|I]; [pose proof (count_pos p); lia|]. apply in_app_iff in I. destruct I as [I|I]; [specialize (R _ I)|specialize (R' _ I)]; lia.
        * constructor; [intros I; apply in_app_iff in I; destruct I as [I|I]; [specialize (R _ I)|specialize (R' _ I)]; lia|].
          apply NoDup_app_intro; auto. intros x I I'. specialize (R _ I). specialize (R' _ I'). lia.
      + pose proof (count_pos p). pose proof (count_pos pl). intros r [<-|[<-|I]]; [lia|lia|]. apply in_app_iff in I. destruct I as [I|I]; [specialize (R _ I)|specialize (R' _ I)]; lia.
    - destruct (IH (S c)) as [N R]. split; [constructor; [intros I; specialize (R _ I); lia|exact N]|]. intros r [<-|I]; [pose proof (count_pos p); lia|]. specialize (R _ I). lia.
    - destruct (IH (S c)) as [N R]. split; [constructor; [intros I; specialize (R _ I); lia|exact N]|]. intros r [<-|I]; [pose proof (count_pos p); lia|]. specialize (R _ I). lia.
    - destruct (IH (S c)) as [N R]. split; [constructor; [intros I; specialize (R _ I); lia|exact N]|]. intros r [<-|I]; [pose proof (count_pos p); lia|]. specialize (R _ I). lia.
  Qed.

  (* the reader of a channel *)
  Definition reads (ps : list proc) (r i : nat) : bool := match nth_error ps i with Some P => existsb (Nat.eqb r) (datas P) | None => false end.
  Definition reader_in (ps : list proc) (r : nat) : nat := match find (reads ps r) (seq 0 (length ps)) with Some i => i | None => 0 end.
  Lemma reads_spec : forall ps r i, reads ps r i = true <-> exists P, nth_error ps i = Some P /\ In r (datas P).
  Proof.
    intros ps r i. unfold reads. split.
    - destruct (nth_error ps i) as [P|]; [|discriminate]. intros H. apply existsb_exists in H. destruct H as (x & I & E). apply Nat.eqb_eq in E. subst x. eauto.
    - intros (P & -> & I). apply existsb_exists. exists r. split; [exact I|apply Nat.eqb_refl].
  Qed.
  Lemma concat_nodup : forall ps r i j P Q, NoDup (concat (map (@datas V) ps)) -> nth_error ps i = Some P -> nth_error ps j = Some Q ->
    In r (datas P) -> In r (datas Q) -> i = j.
  Proof.
    induction ps as [|X ps IH]; intros r i j P Q N HI HJ IP IQ; [destruct i; discriminate|]. cbn in N.
    assert (C : forall k Y, nth_error ps k = Some Y -> In r (datas Y) -> In r (concat (map (@datas V) ps))).
    { intros k Y E I. apply in_concat. exists (datas Y). split; [apply in_map; eapply nth_error_In; exact E|exact I]. }
    assert (D : forall l (m : list nat), NoDup (l ++ m) -> In r l -> In r m -> False).
    { intros l m. induction l as [|y l IHl]; intros ND I1 I2; [destruct I1|]. cbn in ND. inversion ND as [|? ? NI ND']; subst. destruct I1 as [->|I1]; [apply NI, in_or_app; auto|auto]. }
    assert (T : NoDup (concat (map (@datas V) ps))).
    { clear - N. induction (datas X) as [|y l IHl]; [exact N|]. cbn in N. inversion N; auto. }
    destruct i as [|i], j as [|j]; cbn in HI, HJ.
    - reflexivity.
    - injection HI as ->. exfalso. eapply D; [exact N|exact IP|eapply C; eassumption].
    - injection HJ as ->. exfalso. eapply D; [exact N|exact IQ|eapply C; eassumption].
    - f_equal. eapply IH; eassumption.
  Qed.
  Lemma reader_spec : forall ps r i P, NoDup (concat (map (@datas V) ps)) -> nth_error ps i = Some P -> In r (datas P) -> reader_in ps r = i.
  Proof.
    intros ps r i P N E I. unfold reader_in. destruct (find _ _) as [j|] eqn:F.
    - apply find_some in F. destruct F as [_ F]. apply reads_spec in F. destruct F as (Q & EQ & IQ). eapply concat_nodup; eassumption.
    - exfalso. apply find_none with (x := i) in F; [|apply in_seq; split; [lia|]; cbn; apply nth_error_Some; congruence].
      assert (reads ps r i = true) by (apply reads_spec; eauto). congruence.
  Qed.

  (* the channels on the way to a reshape or a reader of cells *)
  Fixpoint spine (c : nat) (p : plan) (x : nat) : Prop :=
    match p with
    | Map f _ _ q | Zip f _ _ q => x = c \/ (never_fails f /\ spine (S c) q x)
    | Scope q | Reshape _ q | Cells _ q => x = c \/ spine (S c) q x
    | _ => x = c
    end.
  Lemma spine_first : forall p c, spine c p c.
  Proof. destruct p; intros c; cbn; auto. Qed.
  Lemma spine_range : forall p c x, spine c p x -> c <= x < c + count p.
  Proof.
    induction p as [vs|vs|v n|f lv filt p IH|f filt pl IHl p IH|p IH|sh p IH|sc p IH]; intros c x H; cbn in H |- *; try lia.
    - destruct H as [->|[_ H]]; [lia|]. apply IH in H. lia.
    - destruct H as [->|[_ H]]; [lia|]. apply IH in H. lia.
    - destruct H as [->|H]; [lia|]. apply IH in H. lia.
    - destruct H as [->|H]; [lia|]. apply IH in H. lia.
    - destruct H as [->|H]; [lia|]. apply IH in H. lia.
  Qed.
  Section Good.
    Context (reader : nat -> nat) (K : nat -> Prop).
    Definition wired (c : nat) (ps : list proc) : Prop := forall j P r, nth_error ps j = Some P -> In r (datas P) -> reader r = c + j.
    Lemma wired_tail : forall c P ps, wired c (P :: ps) -> wired (S c) ps.
    Proof. intros c P ps W j Q r E I. rewrite (W (S j) Q r E I). lia. Qed.
    Lemma good_init : forall (p : plan) c (B : Prop), wired c (goroutines c p) -> (forall x, c <= x < c + count p -> K x <-> B /\ spine c p x) ->
      (plain p \/ (B /\ fits p)) -> forall j P, nth_error (goroutines c p) j = Some P -> good reader K (c + j) P.
    Proof.
      assert (ND : forall (P : proc) c, wfp P -> own P = Some c -> ctls P = [] -> datas P = [] -> ~ is_rho P -> good reader K c P).
      { intros P c W O C D NR. split; rewrite ?C, ?D; [exact W| |intros r []|intros r []|intros R; contradiction|intros r []]. intros x. rewrite O. congruence. }
      induction p as [vs|vs|v n|f lv filt p IH|f filt pl IHl p IH|p IH|sh p IH|sc p IH]; intros c B W KS PF j P E; pose proof W as W0; cbn [goroutines] in E, W.
      - destruct j as [|[|j]]; try discriminate. cbn in E. injection E as <-. rewrite Nat.add_0_r. unfold sendall. destruct vs; apply ND; cbn; auto; try discriminate; intros [(? & ? & ? & ? & Q)|(? & ? & ? & ? & Q)]; discriminate.
      - destruct j as [|[|j]]; try discriminate. cbn in E. injection E as <-. rewrite Nat.add_0_r. apply ND; cbn; auto. intros [(? & ? & ? & ? & Q)|(? & ? & ? & ? & Q)]; discriminate.
      - destruct j as [|[|j]]; try discriminate. cbn in E. injection E as <-. rewrite Nat.add_0_r. assert (N1 : 1 <= n) by (destruct PF as [H|[_ H]]; exact H).
        unfold source. destruct (Z.eqb _ _) eqn:Z0; [apply Z.eqb_eq in Z0; lia|]. destruct (Z.ltb _ _) eqn:Z1; [apply Z.ltb_lt in Z1; lia|]. rewrite Znat.Nat2Z.id.
        apply ND; cbn; eauto. intros [(? & ? & ? & ? & Q)|(? & ? & ? & ? & Q)]; discriminate.
      - cbn [count spine] in KS. destruct j as [|j]; cbn in E.
        + injection E as <-. rewrite Nat.add_0_r. assert (NP : no_panic f) by (destruct PF as [[H _]|[_ [H _]]]; exact H). split; cbn; auto.
          * congruence.
          * intros r I. rewrite (W 0 _ r eq_refl I). lia.
          * intros r I. rewrite (W 0 _ r eq_refl I). lia.
          * intros [(? & ? & ? & ? & Q)|(? & ? & ? & ? & Q)]; discriminate.
          * intros r [<-|[]] KR. apply KS in KR; [|pose proof (count_pos p); lia]. destruct KR as (HB & [Q|[NF SP]]); [lia|].
            split; [apply KS; [pose proof (count_pos p); lia|auto]|auto].
        + replace (c + S j) with (S c + j) by lia. apply (IH (S c) (B /\ never_fails f)); [eapply wired_tail; exact W| | |exact E].
          * intros x R. rewrite KS by lia. split; [intros (HB & [Q|[NF SP]]); [lia|auto]|intros [[HB NF] SP]; auto].
          * destruct PF as [[_ H]|[HB [_ [H|[NF H]]]]]; auto.
      - cbn [count spine] in KS. destruct j as [|j]; cbn in E.
        + injection E as <-. rewrite Nat.add_0_r. assert (NP : no_panic f) by (destruct PF as [[H _]|[_ [H _]]]; exact H). split; cbn; auto.
          * pose proof (count_pos p). repeat split; auto. intros [Q|[]]; lia.
          * congruence.
          * intros r I. rewrite (W 0 _ r eq_refl I). lia.
          * intros r I. rewrite (W 0 _ r eq_refl I). lia.
          * intros [(? & ? & ? & ? & Q)|(? & ? & ? & ? & Q)]; discriminate.
          * pose proof (count_pos p). pose proof (count_pos pl). intros r [<-|[<-|[]]] KR; apply KS in KR; try lia; destruct KR as (HB & [Q|[NF SP]]); try lia.
            -- split; [apply KS; [lia|auto]|auto].
            -- apply spine_range in SP. lia.
        + replace (c + S j) with (S c + j) by lia. apply wired_tail in W. destruct (Nat.ltb_spec j (count p)) as [L|L].
          * rewrite nth_error_app1 in E by (rewrite goroutines_length; exact L). apply (IH (S c) (B /\ never_fails f)); [| | |exact E].
            -- intros i Q r EQ I. apply (W i Q r); [|exact I]. rewrite nth_error_app1; [exact EQ|]. apply nth_error_Some. congruence.
            -- intros x R. rewrite KS by lia. split; [intros (HB & [Q|[NF SP]]); [lia|auto]|intros [[HB NF] SP]; auto].
            -- destruct PF as [[_ [_ H]]|[HB [_ [_ [H|[NF H]]]]]]; auto.
          * rewrite nth_error_app2 in E by (rewrite goroutines_length; exact L). rewrite goroutines_length in E.
            replace (S c + j) with (S c + count p + (j - count p)) by lia. apply (IHl (S c + count p) False); [| | |exact E].
            -- intros i Q r EQ I. replace (S c + count p + i) with (S c + (count p + i)) by lia. apply (W (count p + i) Q r); [|exact I].
               rewrite nth_error_app2 by (rewrite goroutines_length; lia). rewrite goroutines_length. replace (count p + i - count p) with i by lia. exact EQ.
            -- intros x R. rewrite KS by lia. split; [intros (HB & [Q|[NF SP]]); [lia|apply spine_range in SP; lia]|intros [[] _]].
            -- left. destruct PF as [[_ [H _]]|[_ [_ [H _]]]]; exact H.
      - cbn [count spine] in KS. destruct j as [|j]; cbn in E.
        + injection E as <-. rewrite Nat.add_0_r. split; cbn; auto.
          * congruence.
          * intros r I. rewrite (W 0 _ r eq_refl I). lia.
          * intros r I. rewrite (W 0 _ r eq_refl I). lia.
          * intros [(? & ? & ? & ? & Q)|(? & ? & ? & ? & Q)]; discriminate.
          * intros r [<-|[]] KR. apply KS in KR; [|pose proof (count_pos p); lia]. destruct KR as (HB & _).
            split; [apply KS; [pose proof (count_pos p); lia|auto]|auto].
        + replace (c + S j) with (S c + j) by lia. apply (IH (S c) B); [eapply wired_tail; exact W| |exact PF|exact E].
          intros x R. rewrite KS by lia. split; [intros (HB & [Q|SP]); [lia|auto]|intros [HB SP]; auto].
      - cbn [count spine] in KS. destruct PF as [[]|[HB [SZ FT]]]. destruct j as [|j]; cbn in E.
        + injection E as <-. rewrite Nat.add_0_r. split; cbn; auto.
          * congruence.
          * intros r I. rewrite (W 0 _ r eq_refl I). lia.
          * intros r I. rewrite (W 0 _ r eq_refl I). lia.
          * intros _. apply KS; [lia|auto].
          * intros r [<-|[]] KR. split; [apply KS; [lia|auto]|auto].
        + replace (c + S j) with (S c + j) by lia. apply (IH (S c) B); [eapply wired_tail; exact W| |auto|exact E].
          intros x R. rewrite KS by lia. split; [intros (HB' & [Q|SP]); [lia|auto]|intros [HB' SP]; auto].
      - cbn [count spine] in KS. destruct PF as [[]|[HB [ST PF]]]. destruct j as [|j]; cbn in E.
        + injection E as <-. rewrite Nat.add_0_r. split; cbn; auto.
          * congruence.
          * intros r I. rewrite (W 0 _ r eq_refl I). lia.
          * intros r I. rewrite (W 0 _ r eq_refl I). lia.
          * intros _. apply KS; [pose proof (count_pos p); lia|auto].
          * intros r [<-|[]] KR. split; [apply KS; [pose proof (count_pos p); lia|auto]|auto].
        + replace (c + S j) with (S c + j) by lia. apply (IH (S c) B); [eapply wired_tail; exact W| |auto|exact E].
          intros x R. rewrite KS by lia. split; [intros (HB' & [Q|SP]); [lia|auto]|intros [HB' SP]; auto].
    Qed.
  End Good.

  Lemma cells_start : forall (p : plan) c j c0 r sc v vs got e, nth_error (goroutines c p) j = Some (PCells c0 r sc (CSend v vs got e)) -> False.
  Proof.
    induction p as [vs0|vs0|v0 n|f lv filt p IH|f filt pl IHl p IH|p IH|sh p IH|sc0 p IH]; intros c j c0 r sc v vs got e E; cbn [goroutines] in E;
      try (destruct j as [|j]; cbn in E; [discriminate|eapply IH; exact E]).
    - destruct j as [|[|j]]; try discriminate. cbn in E. injection E as E. unfold sendall in E. destruct vs0; discriminate.
    - destruct j as [|[|j]]; discriminate.
    - destruct j as [|[|j]]; try discriminate. cbn in E. injection E as E. unfold source in E. destruct (Z.eqb _ _); discriminate.
    - destruct j as [|j]; cbn in E; [discriminate|]. destruct (Nat.ltb_spec j (length (goroutines (S c) p))) as [L|L].
      + rewrite nth_error_app1 in E by exact L. eapply IH; exact E.
      + rewrite nth_error_app2 in E by exact L. eapply IHl; exact E.
  Qed.
  Definition sys_reader (p : plan) (ops : list (op V)) : nat -> nat := reader_in (procs (system oneV p ops)).
  Definition sys_K (p : plan) (ops : list (op V)) (x : nat) : Prop := closes ops = 0 /\ spine 1 p x.
  Lemma system_nodup : forall (p : plan) ops, tidy 1 ops -> NoDup (concat (map datas (procs (system oneV p ops)))).
  Proof.
    intros p ops [U L]. unfold system. cbn [procs map concat]. destruct (due_next oneV ops [] U L) as (_ & _ & _ & ->). cbn.
    destruct (goroutines_datas p 1) as [N R]. constructor; [|exact N]. intros I. specialize (R _ I). lia.
  Qed.
  Lemma system_fine : forall (p : plan) ops, tidy 1 ops -> fits p -> (closes ops = 0 \/ plain p) -> fine (sys_reader p ops) (sys_K p ops) (system oneV p ops).
  Proof.
    intros p ops T F C. pose proof (system_nodup p ops T) as N. destruct T as [U L].
    destruct (due_next oneV ops [] U L) as (WM & CM & OM & DM).
    assert (W : wired (sys_reader p ops) 1 (goroutines 1 p)).
    { intros j P r E I. unfold sys_reader. apply (reader_spec _ r (1 + j) P N); [exact E|exact I]. }
    split.
    - intros i P A. unfold at_, system in A. cbn [procs] in A. destruct i as [|i]; cbn in A.
      + injection A as <-. split.
        * exact WM.
        * rewrite OM. discriminate.
        * rewrite CM. intros r I. destruct (closes ops); [destruct I|]. destruct I as [<-|[]]. unfold sys_reader. eapply reader_spec; [exact N|reflexivity|]. rewrite DM. left. reflexivity.
        * rewrite DM. intros r [<-|[]]. unfold sys_reader. eapply reader_spec; [exact N|reflexivity|]. rewrite DM. left. reflexivity.
        * intros [(c & r & sh & st & Q)|(c & r & sh & st & Q)]; destruct ops as [|[] ?]; discriminate.
        * rewrite CM. intros r I [C0 _]. rewrite C0 in I. destruct I.
      + change (S i) with (1 + i). apply (good_init (sys_reader p ops) (sys_K p ops) p 1 (closes ops = 0) W); [| |exact A].
        * intros x _. unfold sys_K. tauto.
        * destruct C as [C|C]; [right; auto|left; exact C].
    - intros i P c _ _ [].
    - intros i P r _ _ [].
    - intros c _ [].
    - intros i c r sc v vs got A. exfalso. unfold at_, system in A. cbn [procs] in A. destruct i as [|i]; cbn in A; [destruct ops as [|[] ?]; discriminate|]. exact (cells_start p 1 i _ _ _ _ _ _ _ A).
  Qed.
End Init.
