(* Prop_ChanPrint.v -- ⎕←C: what is printed when a channel is printed (C100). *)
From Coq Require Import List Bool Arith Lia.
From Verif Require Import Base M_Chan S_Chan P_Chan P_Chan2 P_Chan3 P_Chan4 P_Chan5 P_Chan6 Prop_Chan.
Import ListNotations.
Open Scope list_scope.
Open Scope nat_scope.

(* ⎕←C is goroutine 1 and reads channel 2: the values that it has received in a schedule *)
Fixpoint arrived {V} (t : list (label V)) : list V :=
  match t with
  | [] => []
  | Comm _ j (Data c) v :: t' => if (j =? 1) && (c =? 2) then v :: arrived t' else arrived t'
  | _ :: t' => arrived t'
  end.
(* the values that it has passed on *)
Fixpoint passed {V} (t : list (label V)) : list V :=
  match t with
  | [] => []
  | Comm i _ (Data c) v :: t' => if (i =? 1) && (c =? 1) then v :: passed t' else passed t'
  | _ :: t' => passed t'
  end.

Section Props.
  Context {V : Type} (errV emptyV oneV : V) (isEmpty : V -> bool) (ravel : V -> list V) (pack : list nat -> list V -> V).
  Local Notation step := (step errV emptyV oneV isEmpty ravel pack).
  Local Notation run := (run errV emptyV oneV isEmpty ravel pack).
  Local Notation outputs := (outputs errV isEmpty ravel pack).
  Local Notation finished := (finished step).
  Local Notation system := (system oneV).
  Local Notation Del := (Del errV isEmpty ravel pack).

  Lemma arrived_app : forall t u : list (label V), arrived (t ++ u) = arrived t ++ arrived u.
  Proof. induction t as [|[i j [c|c] v|j q|i q] t IH]; intros u; cbn; rewrite ?IH; auto. destruct (_ && _); reflexivity. Qed.
  Lemma passed_app : forall t u : list (label V), passed (t ++ u) = passed t ++ passed u.
  Proof. induction t as [|[i j [c|c] v|j q|i q] t IH]; intros u; cbn; rewrite ?IH; auto. destruct (_ && _); reflexivity. Qed.

  (* the goroutine of ⎕←C *)
  Definition sending (st : sstate V) : list V := match st with SSend v => [v] | _ => [] end.
  Inductive scoping (all : list V) (t : list (label V)) (s : sys V) : Prop :=
  | sc_on st vs : at_ s 1 (PScope 1 2 (arrived t) st) -> st <> SCloseR -> Del s (LChan 2) (Stream vs) -> arrived t ++ vs = all -> passed t ++ sending st = arrived t -> scoping all t s
  | sc_off P vs rest : at_ s 1 P -> P = PScope 1 2 (arrived t) SCloseR \/ P = PClose 1 \/ P = PEnd -> In (Ctl 1) (closed s) -> arrived t ++ vs = all -> passed t ++ rest = arrived t -> scoping all t s
  | sc_end P : at_ s 1 P -> P = PClose 1 \/ P = PEnd -> arrived t = all -> passed t = all -> scoping all t s.

  Lemma scoping_run : forall p ops t s, tidy 1 ops -> fits (Scope p) -> (closes ops = 0 \/ plain p) -> run (system (Scope p) ops) t s -> scoping (outputs p) t s.
  Proof.
    intros p ops t s T FT C RN. remember (system (Scope p) ops) as s0 eqn:E0. pose proof (inv_init errV emptyV oneV isEmpty ravel pack (Scope p) ops T FT C) as I0.
    assert (B0 : scoping (outputs p) [] s0).
    { subst s0. apply sc_on with (st := SLoop) (vs := outputs p); try reflexivity; try discriminate.
      refine (init_del errV oneV isEmpty ravel pack p _ 2 _ (or_intror FT)). intros j P N. exact N. }
    rewrite <- E0 in I0. clear E0. induction RN as [s|s t s1 lab s2 RN IH ST]; [exact B0|]. specialize (IH I0 B0).
    pose proof (inv_run _ _ _ _ _ _ _ _ _ _ _ _ RN I0) as (F & _).
    assert (KEEPC : forall q, In q (closed s1) -> In q (closed s2)) by (intros q I; rewrite (step_closed _ _ _ _ _ _ _ _ _ ST); destruct lab; auto; right; exact I).
    assert (ENDED : forall P, at_ s1 1 P -> P = PScope 1 2 (arrived t) SCloseR \/ P = PClose 1 \/ P = PEnd ->
      exists P', at_ s2 1 P' /\ (P' = PScope 1 2 (arrived t) SCloseR \/ P' = PClose 1 \/ P' = PEnd) /\ (P = PClose 1 \/ P = PEnd -> P' = PClose 1 \/ P' = PEnd) /\ arrived [lab] = [] /\ passed [lab] = []).
    { intros P A HP. destruct (step_view _ _ _ _ _ _ _ _ _ ST 1 P A) as (P' & A' & M). exists P'. split; [exact A'|].
      destruct M as [lab S ->|j pt w Q g NE (bs & N & I) OP AQ CRV|i pt w g Q k NE (bs & N & I) OP -> AQ CS|pt g (bs & N & I) IC ->|pt N OP];
        [|destruct HP as [->|[->| ->]]; discriminate|destruct HP as [->|[->| ->]]; discriminate|destruct HP as [->|[->| ->]]; discriminate|].
      - split; [exact HP|]. split; [auto|]. destruct lab as [i j [c|c] v|j q|i q]; cbn in S |- *; auto. destruct S. rewrite (proj2 (Nat.eqb_neq j 1)), (proj2 (Nat.eqb_neq i 1)) by lia. auto.
      - destruct HP as [->|[->| ->]]; cbn in N; try discriminate; injection N as <- <-; repeat split; auto; intros [X|X]; discriminate. }
    destruct IH as [st vs A NS D EA EP|P vs rest A HP IC EA EP|P A HP EA EP].
    - destruct (step_view _ _ _ _ _ _ _ _ _ ST 1 _ A) as (P' & A' & M). pose proof (f_good _ _ _ F 1 _ A) as G.
      destruct (del_step errV emptyV oneV isEmpty ravel pack _ _ _ _ _ F ST _ _ D) as (L' & D' & AD).
      assert (Or : open s1 (Ctl 2)) by (apply (f_ctl _ _ _ F 1 _ 2 A); cbn; destruct st; auto; congruence).
      assert (Rr : sys_reader oneV (Scope p) ops 2 = 1) by (apply (g_ctl _ _ _ _ G 2); cbn; destruct st; auto; congruence).
      assert (NOC : (forall v, lab <> Comm 2 1 (Data 2) v) -> L' = Stream vs) by (intros NC; eapply quiet; [exact F|exact ST|exact Or|exact Rr|exact AD|exact NC]).
      destruct M as [lab S ->|j pt w Q g NE (bs & N & I) OP AQ CRV|i pt w g Q k NE (bs & N & I) OP -> AQ CS|pt g (bs & N & I) IC ->|pt N OP].
      + assert (AL : arrived [lab] = [] /\ passed [lab] = []). { destruct lab as [i j [c|c] v|j q|i q]; cbn in S |- *; auto. destruct S. rewrite (proj2 (Nat.eqb_neq j 1)), (proj2 (Nat.eqb_neq i 1)) by lia. auto. }
        destruct AL as [AL PL].
        rewrite NOC in D' by (intros v ->; cbn in S; tauto).
        apply sc_on with (st := st) (vs := vs); rewrite ?arrived_app, ?passed_app, ?AL, ?PL, ?app_nil_r; auto.
      + rewrite NOC in D' by (intros v E; injection E as E _ _ _; lia).
        destruct st as [|v|]; cbn in N; try discriminate; injection N as <-; destruct I as [I|[I|[]]]; try discriminate. injection I as <- <- <-.
        assert (AL : arrived [Comm 1 j (Data 1) v] = []) by (cbn; rewrite Bool.andb_false_r; reflexivity).
        assert (PL : passed [Comm 1 j (Data 1) v] = [v]) by reflexivity.
        apply sc_on with (st := SLoop) (vs := vs); rewrite ?arrived_app, ?passed_app, ?AL, ?PL, ?app_nil_r; auto; try discriminate.
      + pose proof (send_own errV emptyV oneV isEmpty ravel pack _ _ i Q pt w k (f_good _ _ _ F i Q AQ) CS) as [-> _].
        destruct st as [|v|]; cbn in N; try discriminate; injection N as <-; destruct I as [I|[I|[]]]; try discriminate. injection I as <- <-.
        assert (AL : arrived [Comm 2 1 (Data 2) w] = [w]) by reflexivity. assert (PL : passed [Comm 2 1 (Data 2) w] = []) by reflexivity.
        destruct AD as [(j & v & us & E & EL & ->)|[E|(NC & _)]]; [|discriminate|exfalso; eapply NC; reflexivity]. injection E as <- <-. injection EL as ->.
        apply sc_on with (st := SSend w) (vs := us); rewrite ?arrived_app, ?passed_app, ?AL, ?PL, ?app_nil_r; auto; try discriminate; [rewrite <- app_assoc; exact EA|].
        cbn in EP |- *. rewrite app_nil_r in EP. rewrite EP. reflexivity.
      + assert (AL : arrived [@Eof V 1 pt] = []) by reflexivity. assert (PL : passed [@Eof V 1 pt] = []) by reflexivity.
        destruct st as [|v|]; cbn in N; try discriminate; injection N as <-; destruct I as [I|[I|[]]]; try discriminate; injection I as <- <-.
        * eapply sc_off with (vs := vs) (rest := []); [exact A'|rewrite arrived_app, AL, app_nil_r; auto|apply KEEPC, IC| |]; rewrite ?arrived_app, ?passed_app, ?AL, ?PL, ?app_nil_r; auto. cbn in EP. rewrite app_nil_r in EP. exact EP.
        * assert (E : Stream vs = Stream []) by (eapply closed_nil; eassumption). injection E as ->.
          rewrite app_nil_r in EA. cbn in EP. rewrite app_nil_r in EP. eapply sc_end; [exact A'|auto| |]; rewrite ?arrived_app, ?passed_app, ?AL, ?PL, ?app_nil_r; congruence.
        * eapply sc_off with (vs := vs) (rest := [v]); [exact A'|rewrite arrived_app, AL, app_nil_r; auto|apply KEEPC, IC| |]; rewrite ?arrived_app, ?passed_app, ?AL, ?PL, ?app_nil_r; auto.
      + destruct st as [|v|]; cbn in N; try discriminate. congruence.
    - destruct (ENDED P A HP) as (P' & A' & HP' & _ & AL & PL). eapply sc_off with (vs := vs) (rest := rest); [exact A'| |apply KEEPC, IC| |]; rewrite ?arrived_app, ?passed_app, ?AL, ?PL, ?app_nil_r; auto.
    - destruct (ENDED P A ltac:(tauto)) as (P' & A' & _ & HP' & AL & PL). eapply sc_end; [exact A'|auto| |]; rewrite ?arrived_app, ?passed_app, ?AL, ?PL, ?app_nil_r; auto.
  Qed.

  (* at every moment: what is printed is what has arrived, it is a beginning of what C delivers, and
     what was passed on has been printed before *)
  Theorem C100_in_order : forall p ops t s, tidy 1 ops -> fits (Scope p) -> (closes ops = 0 \/ plain p) -> run (system (Scope p) ops) t s ->
    (forall out st, nth_error (procs s) 1 = Some (PScope 1 2 out st) -> out = arrived t) /\
    (exists later, arrived t ++ later = outputs p) /\ (exists waiting, passed t ++ waiting = arrived t).
  Proof.
    intros p ops t s T FT C RN. destruct (scoping_run p ops t s T FT C RN) as [st vs A NS D EA EP|P vs rest A HP IC EA EP|P A HP EA EP]; unfold at_ in A; rewrite A.
    - split; [intros out st' E; congruence|]. eauto.
    - split; [intros out st' E; destruct HP as [->|[->| ->]]; congruence|]. eauto.
    - split; [intros out st' E; destruct HP as [->| ->]; congruence|]. rewrite EA, EP. split; exists []; apply app_nil_r.
  Qed.
  (* when the printing goroutine has returned and the channel was not closed, everything was printed and passed on *)
  Theorem C100_all : forall p ops t s, tidy 1 ops -> fits (Scope p) -> closes ops = 0 -> run (system (Scope p) ops) t s -> nth_error (procs s) 1 = Some PEnd ->
    arrived t = outputs p /\ passed t = outputs p.
  Proof.
    intros p ops t s T FT C RN E. destruct (scoping_run p ops t s T FT (or_introl C) RN) as [st vs A NS D EA EP|P vs rest A HP IC EA EP|P A HP EA EP]; [unfold at_ in A; congruence| |auto].
    exfalso. pose proof (inv_run _ _ _ _ _ _ _ _ _ _ _ _ RN (inv_init errV emptyV oneV isEmpty ravel pack (Scope p) ops T FT (or_introl C))) as (F & _).
    apply (f_k _ _ _ F 1); [|exact IC]. split; [exact C|]. cbn. auto.
  Qed.
End Props.
(* ⎕←<¨7 8, and a few steps of it: 7 has been printed and passed on, 8 has not arrived *)
Example C100_example : let keep := fun _ v => @Ok nat v in
  tidy 1 [@Show nat 1] /\ fits (Scope (Map keep None false (Values [7; 8]))) /\ closes [@Show nat 1] = 0 /\
  exists t s, run 0 0 0 (fun _ => false) (fun v => [v]) (fun _ _ => 0) (system 0 (Scope (Values [7; 8])) [Show 1]) t s /\
    nth_error (procs s) 1 = Some (PScope 1 2 [7] SLoop) /\ arrived t = [7] /\ passed t = [7].
Proof.
  intros keep. split; [split; [repeat constructor|cbn; lia]|]. split; [cbn; split; [discriminate|auto]|]. split; [reflexivity|].
  exists ([] ++ [Comm 2 1 (Data 2) 7] ++ [Comm 1 0 (Data 1) 7]). eexists. split.
  { rewrite app_assoc. eapply run_snoc; [eapply run_snoc; [apply run_nil|]|].
    - eapply st_comm with (i := 2) (j := 1); [discriminate|reflexivity|reflexivity|reflexivity|right; left; reflexivity|reflexivity|right; left; reflexivity|intros []].
    - cbn. eapply st_comm with (i := 1) (j := 0); [discriminate|reflexivity|reflexivity|reflexivity|right; left; reflexivity|reflexivity|left; reflexivity|intros []]. }
  repeat split.
Qed.
Print Assumptions C100_in_order. Print Assumptions C100_all.
