(* P_Chan3.v -- every schedule ends. *)
From Coq Require Import List Bool Arith Lia.
From Verif Require Import Base M_Chan S_Chan P_Chan P_Chan2.
Import ListNotations.
Open Scope list_scope.
Open Scope nat_scope.

(* lists of numbers, later positions are more significant *)
Inductive lex : list nat -> list nat -> Prop :=
| lx_here x y a : x < y -> lex (x :: a) (y :: a)
| lx_there x y a b : lex a b -> lex (x :: a) (y :: b).
Lemma lex_acc : forall l, Acc lex l.
Proof.
  induction l as [|x l IH]; [constructor; intros y H; inversion H|]. revert x. induction IH as [l _ IHl]. intros x. induction x as [x IHx] using lt_wf_ind.
  constructor. intros y H. inversion H; subst; auto.
Qed.
Lemma lex_intro : forall k a b x y, length a = length b -> nth_error a k = Some x -> nth_error b k = Some y -> x < y ->
  (forall j, k < j -> nth_error a j = nth_error b j) -> lex a b.
Proof.
  induction k as [|k IH]; intros [|u a] [|w b] x y L A B LT E; try discriminate; cbn in L, A, B.
  - injection A as ->. injection B as ->. replace b with a; [constructor; exact LT|].
    assert (E' : forall j, nth_error a j = nth_error b j) by (intros j; apply (E (S j)); lia). clear - E'. revert b E'.
    induction a as [|z a IH]; intros [|z' b] E; auto; try (specialize (E 0); discriminate). f_equal; [specialize (E 0); cbn in E; congruence|]. apply IH. intros j. apply (E (S j)).
  - constructor. apply (IH a b x y); auto. intros j J. apply (E (S j)). lia.
Qed.

Section Chan.
  Context {V : Type} (errV emptyV oneV : V) (isEmpty : V -> bool) (ravel : V -> list V) (pack : list nat -> list V -> V).
  Local Notation proc := (proc V).
  Local Notation sys := (sys V).
  Local Notation next := (next errV emptyV oneV isEmpty ravel pack).
  Local Notation step := (step errV emptyV oneV isEmpty ravel pack).
  Local Notation can_send := (can_send errV emptyV oneV isEmpty ravel pack).
  Local Notation can_recv := (can_recv errV emptyV oneV isEmpty ravel pack).
  Local Notation main_next := (main_next oneV).
  Local Notation apply_call := (apply_call isEmpty).

  Definition aweight (st : astate V) : nat := match st with ACloseL => 2 | ACloseR _ => 3 | AError | ALoop => 4 | ASend _ => 5 | AGot _ => 6 end.
  Definition mweight (st : mstate V) : nat := match st with MIdle => 0 | MReduce _ _ _ | MScan _ _ _ => 3 | MClose _ _ => 2 | _ => 1 end.
  Definition weight (P : proc) : nat :=
    match P with
    | PEnd | PCrash => 0
    | PClose _ | POnce _ _ => 1
    | PSend _ vs | PLines _ vs => 1 + length vs
    | PRepeat _ _ n => match n with Some n => 1 + n | None => 0 end
    | PApply _ _ _ _ _ st => aweight st
    | PScope _ _ _ st | PCopy _ _ st => match st with SCloseR => 2 | SLoop => 3 | SSend _ => 4 end
    | PRho _ _ _ st => match st with RLoop _ => 2 | RSend _ es => 3 + length es | _ => 0 end
    | PCells _ _ sc st => match st with CClose _ | CAgain | CFail => 0 | CLoop got => 3 + length (sc got true) | CSend _ vs got eof => if eof then 2 + length vs else 4 + length vs + length (sc got true) end
    | PMain st ops _ => mweight st + 4 * length ops
    end.
  Lemma main_weight : forall ops log, weight (main_next ops log) <= 4 * length ops.
  Proof. intros [|[] ops] log; cbn; lia. Qed.
  Lemma call_weight : forall c r l f filt lv v, weight (apply_call c r l f filt lv v) <= 5.
  Proof. intros. unfold M_Chan.apply_call. destruct (f lv v) as [w| |]; cbn; try lia. destruct (filt && isEmpty w); cbn; lia. Qed.
  Lemma push_weight : forall es c r sh acc, weight (rho_push c r sh acc es) <= 2 + length es.
  Proof.
    induction es as [|e es IH]; intros c r sh acc; cbn [rho_push length]; [cbn; lia|].
    destruct (_ <=? _); [cbn; lia|]. destruct (_ =? _); [cbn; lia|]. specialize (IH c r sh (acc ++ [e])). lia.
  Qed.
  Lemma cells_weight : forall c r sc got eof vs, weight (cells_push c r sc got eof vs) <= length vs + if eof then 1 else 3 + length (sc got true).
  Proof. intros c r sc got eof [|v vs]; cbn; destruct eof; cbn; lia. Qed.
  Section Fixed.
  Context (reader : nat -> nat) (K : nat -> Prop).
  Lemma send_weight : forall i P p v k, good reader K i P -> can_send P p v k -> weight k < weight P.
  Proof.
    intros i P p v k G (bs & E & I). pose proof (g_wf _ _ _ _ G) as W.
    destruct P as [| |c|c vs|c v0|c v0 n|c ls|c r l f filt st|c r out st|c r sh st|c r sc st|l r st|st ops log]; cbn in E, W; try discriminate; try contradiction.
    - destruct vs as [|u vs]; try discriminate. injection E as <-. destruct I as [I|[I|[]]]; try discriminate. injection I as _ _ <-. unfold sendall. destruct vs; cbn; lia.
    - injection E as <-. destruct I as [I|[I|[]]]; try discriminate. injection I as _ _ <-. destruct W as (m & -> & M). destruct (m <=? 1) eqn:Q; cbn; lia.
    - destruct ls; try discriminate. injection E as <-. destruct I as [I|[I|[]]]; try discriminate. injection I as _ _ <-. cbn. lia.
    - destruct st; try discriminate; try (destruct l; discriminate).
      + injection E as <-. destruct I as [I|[I|[]]]; try discriminate.
      + destruct l; try discriminate. injection E as <-. destruct I as [I|[]]; discriminate.
      + injection E as <-. destruct I as [I|[]]. injection I as _ _ <-. cbn. lia.
      + injection E as <-. destruct I as [I|[]]. injection I as _ _ <-. cbn. lia.
    - destruct st; try discriminate; injection E as <-; destruct I as [I|[I|[]]]; try discriminate. injection I as _ _ <-. cbn. lia.
    - destruct st; try discriminate; injection E as <-; destruct I as [I|[I|[]]]; try discriminate. injection I as _ _ <-.
      pose proof (push_weight es c r sh []). cbn [weight]. lia.
    - destruct W as [ST W]; destruct st; try discriminate; try contradiction; injection E as <-; destruct I as [I|[I|[]]]; try discriminate. injection I as _ _ <-. pose proof (cells_weight c r sc got eof vs). cbn [weight]. destruct eof; lia.
    - destruct st; try discriminate; try (injection E as <-; destruct I as [I|[]]; discriminate). destruct W as [[] _].
  Qed.
  Lemma eof_weight : forall i P p g, good reader K i P -> can_recv P p g -> (p = Ctl i -> ~ K i) -> weight (g None) < weight P.
  Proof.
    intros i P p g G (bs & E & I) CT. pose proof (g_wf _ _ _ _ G) as W. pose proof (g_own _ _ _ _ G) as GO.
    destruct P as [| |c|c vs|c v0|c v0 n|c ls|c r l f filt st|c r out st|c r sh st|c r sc st|l r st|st ops log]; cbn in E, W, GO; try discriminate; try contradiction.
    - destruct vs as [|u vs]; try discriminate. injection E as <-. destruct I as [I|[I|[]]]; try discriminate. injection I as _ <-. cbn. lia.
    - injection E as <-. destruct I as [I|[I|[]]]; try discriminate. injection I as _ <-. destruct W as (m & -> & M). cbn. lia.
    - destruct ls; try discriminate. injection E as <-. destruct I as [I|[I|[]]]; try discriminate. injection I as _ <-. cbn. lia.
    - destruct st; try discriminate; try (destruct l; discriminate).
      + injection E as <-. destruct I as [I|[I|[]]]; injection I as <- <-; [cbn; lia|]. destruct l; cbn; lia.
      + destruct l; try discriminate. injection E as <-. destruct I as [I|[]]; injection I as _ <-. pose proof (call_weight c r (LChan l) f filt None v). cbn [weight aweight]. lia.
      + injection E as <-. destruct I as [I|[]]. discriminate.
      + injection E as <-. destruct I as [I|[]]. discriminate.
    - destruct st; try discriminate; injection E as <-; destruct I as [I|[I|[]]]; try discriminate; injection I as <- <-; cbn; lia.
    - assert (KI : K i) by (apply (g_rho _ _ _ _ G); left; exists c, r, sh, st; reflexivity).
      destruct st; try discriminate; try contradiction; injection E as <-; destruct I as [I|[I|[]]]; try discriminate; injection I as <- <-.
      + exfalso. apply CT; [rewrite (GO c eq_refl); reflexivity|exact KI].
      + cbn. lia.
      + exfalso. apply CT; [rewrite (GO c eq_refl); reflexivity|exact KI].
    - assert (KI : K i) by (apply (g_rho _ _ _ _ G); right; exists c, r, sc, st; reflexivity).
      destruct W as [ST W]; destruct st; try discriminate; try contradiction; injection E as <-; destruct I as [I|[I|[]]]; try discriminate; injection I as <- <-; [exfalso; apply CT; [rewrite (GO c eq_refl); reflexivity|exact KI]| |cbn; destruct eof; lia].
      unfold cells_finish. pose proof (cells_weight c r sc got true (skipn (length (sc got false)) (sc got true))) as X. rewrite skipn_length in X. cbn [weight]. lia.
    - destruct st; cbn in E; try discriminate; injection E as <-; destruct I as [I|[]]; try discriminate; injection I as _ <-; cbn [weight mweight]; try lia;
        match goal with |- weight (M_Chan.main_next _ ?o ?g) < _ => pose proof (main_weight o g); lia end.
  Qed.
  Lemma close_weight : forall i P p k, good reader K i P -> next P = DoClose p k -> weight k < weight P.
  Proof.
    intros i P p k G E. pose proof (g_wf _ _ _ _ G) as W.
    destruct P as [| |c|c vs|c v0|c v0 n|c ls|c r l f filt st|c r out st|c r sh st|c r sc st|l r st|st ops log]; cbn in E, W; try discriminate; try contradiction.
    - injection E as _ <-. cbn. lia.
    - destruct vs; discriminate.
    - destruct ls; try discriminate. injection E as _ <-. cbn. lia.
    - destruct st; try discriminate.
      + destruct l; discriminate.
      + injection E as _ <-. destruct l; [cbn; lia|]. destruct then_l; cbn; lia.
      + destruct l; try discriminate. injection E as _ <-. cbn. lia.
    - destruct st; try discriminate. injection E as _ <-. cbn. lia.
    - destruct st; try discriminate; contradiction.
    - destruct W as [ST W]; destruct st; try discriminate; contradiction.
    - destruct st; try discriminate. injection E as _ <-. cbn. lia.
  Qed.

  Context (RD : forall r, reader r <= pred r).
  Lemma step_lex : forall s lab s', fine reader K s -> step s lab s' -> lex (map weight (procs s')) (map weight (procs s)).
  Proof.
    intros s lab s' F H. pose proof (step_length _ _ _ _ _ _ _ _ _ H) as LN.
    assert (M : forall a c P, nth_error (procs a) c = Some P -> nth_error (map weight (procs a)) c = Some (weight P)) by (intros a c P E; rewrite nth_error_map, E; reflexivity).
    assert (KEY : forall k P P', at_ s k P -> at_ s' k P' -> weight P' < weight P -> (forall c, k < c -> still lab c) -> lex (map weight (procs s')) (map weight (procs s))).
    { intros k P P' A A' LT ST. apply (lex_intro k _ _ (weight P') (weight P)); auto; [rewrite !map_length; exact LN|].
      intros c C. rewrite !nth_error_map. destruct (nth_error (procs s) c) as [Q|] eqn:E.
      - destruct (step_view _ _ _ _ _ _ _ _ _ H c Q E) as (Q' & AQ & MV). rewrite AQ. specialize (ST c C).
        inversion MV; subst; cbn in ST; try lia. reflexivity.
      - apply nth_error_None in E. rewrite <- LN in E. apply nth_error_None in E. rewrite E. reflexivity. }
    inversion H as [ps cl i j p v k g P Q bs bs' IJ AI AJ NP IP NQ IQ OP|ps cl j p g Q bs AJ NQ IQ CL|ps cl i p k P AI NP OP]; subst.
    - pose proof (f_good _ _ _ F i P AI) as GP. pose proof (f_good _ _ _ F j Q AJ) as GQ.
      destruct (send_own errV emptyV oneV isEmpty ravel pack reader K i P p v k GP) as [-> OW]; [eexists; split; eassumption|].
      destruct (recv_port errV emptyV oneV isEmpty ravel pack reader K j Q (Data i) g GQ) as [[X _]|[(r & X & ID)|(r & X & _)]]; [eexists; split; eassumption|discriminate| |discriminate]. injection X as <-.
      pose proof (g_data _ _ _ _ GQ i ID) as R. pose proof (RD i) as LE.
      apply (KEY i P k); [exact AI| |apply (send_weight i P (Data i) v k GP); eexists; split; eassumption|].
      + unfold at_; cbn [procs]; rewrite nth_upd_other by auto. eapply nth_upd_same. exact AI.
      + intros c C. cbn. lia.
    - pose proof (f_good _ _ _ F j Q AJ) as GQ.
      eapply (KEY j Q (g None)); [exact AJ|unfold at_; cbn [procs]; eapply nth_upd_same; exact AJ| |intros c C; cbn; lia].
      eapply eof_weight; [exact GQ|eexists; split; eassumption|]. intros -> KI. apply (f_k _ _ _ F j KI). exact CL.
    - pose proof (f_good _ _ _ F i P AI) as GP.
      eapply (KEY i P k); [exact AI|unfold at_; cbn [procs]; eapply nth_upd_same; exact AI| |intros c C; cbn; lia]. eapply close_weight; [exact GP|exact NP].
  Qed.
  Lemma steps_end : forall s, fine reader K s -> Acc (fun s' s => exists lab, step s lab s') s.
  Proof.
    intros s. remember (map weight (procs s)) as w eqn:E. revert s E. induction (lex_acc w) as [w _ IH]. intros s -> F. constructor. intros s' (lab & H).
    apply (IH (map weight (procs s'))); [eapply step_lex; eassumption|reflexivity|]. eapply fine_step; eassumption.
  Qed.
  End Fixed.

  Lemma datas_above : forall (p : plan V) c j P r, nth_error (goroutines c p) j = Some P -> In r (datas P) -> c + j < r.
  Proof.
    induction p as [vs|vs|v n|f lv filt p IH|f filt pl IHl p IH|p IH|sh p IH|sc p IH]; intros c j P r E I; cbn [goroutines] in E.
    - destruct j as [|[|j]]; try discriminate. cbn in E. injection E as <-. unfold sendall in I. destruct vs; destruct I.
    - destruct j as [|[|j]]; try discriminate. cbn in E. injection E as <-. destruct I.
    - destruct j as [|[|j]]; try discriminate. cbn in E. injection E as <-. unfold source in I. destruct (Z.eqb _ _); destruct I.
    - destruct j as [|j]; cbn in E; [injection E as <-; destruct I as [<-|[]]; lia|]. specialize (IH _ _ _ _ E I). lia.
    - destruct j as [|j]; cbn in E; [injection E as <-; destruct I as [<-|[<-|[]]]; lia|]. destruct (Nat.ltb_spec j (count p)) as [L|L].
      + rewrite nth_error_app1 in E by (rewrite goroutines_length; exact L). specialize (IH _ _ _ _ E I). lia.
      + rewrite nth_error_app2 in E by (rewrite goroutines_length; exact L). rewrite goroutines_length in E. specialize (IHl _ _ _ _ E I). lia.
    - destruct j as [|j]; cbn in E; [injection E as <-; destruct I as [<-|[]]; lia|]. specialize (IH _ _ _ _ E I). lia.
    - destruct j as [|j]; cbn in E; [injection E as <-; destruct I as [<-|[]]; lia|]. specialize (IH _ _ _ _ E I). lia.
    - destruct j as [|j]; cbn in E; [injection E as <-; destruct I as [<-|[]]; lia|]. specialize (IH _ _ _ _ E I). lia.
  Qed.
  Lemma sys_reader_below : forall (p : plan V) ops, tidy 1 ops -> forall r, sys_reader oneV p ops r <= pred r.
  Proof.
    intros p ops [U L] r. unfold sys_reader, reader_in. destruct (find _ _) as [i|] eqn:F; [|lia]. apply find_some in F. destruct F as [_ F]. apply reads_spec in F. destruct F as (P & E & I).
    unfold system in E. cbn [procs] in E. destruct i as [|i]; [lia|]. cbn in E. pose proof (datas_above p 1 i P r E I). lia.
  Qed.
End Chan.
