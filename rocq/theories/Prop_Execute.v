(* Prop_Execute.v -- the output is not read by the evaluation (C146); the function ⍎ compared with a program (C147). *)
From Verif Require Import Base M_Syntax M_Eval M_Execute S_Eval P_Eval P_EvalOut Prop_Eval Prop_Program.
From Coq Require Import String List Lia.
Import ListNotations.
Open Scope list_scope.

Section Props.
  Context {D X : Type} (G : lang D X).
  Local Notation value := (value D). Local Notation st := (st D X).
  Local Notation expr := (expr D).
  Local Notation ends := (ends G). Local Notation evaluates := (evaluates G).
  Local Notation runs := (runs G).

  (* the same state with another output *)
  Definition with_out (s : st) (o : list value) : st := mkSt (envs s) (pkgs s) (origin s) o (ext s).
  Lemma after_out o s : after o s = with_out s (o ++ out s). Proof. reflexivity. Qed.
  Lemma out_out s a b : with_out (with_out s a) b = with_out s b. Proof. reflexivity. Qed.
  Lemma out_id (s : st) : with_out s (out s) = s. Proof. destruct s; reflexivity. Qed.

  (* ---------- C146 ---------- *)
  (* what is evaluated prints d, whatever had been printed before, with the same outcome and the same effects otherwise *)
  Theorem C146_write_only t s o s' : ends t s o s' ->
    exists d, out s' = out s ++ d /\ forall before, ends t (with_out s before) o (with_out s' (before ++ d)).
  Proof.
    intros [n H]. pose proof (bl_interp G n t (with_out s []) (out s)) as B. rewrite after_out, out_out in B. cbn [with_out out] in B. rewrite app_nil_r in B. rewrite out_id, H in B.
    destruct (interp G n t (with_out s [])) as [[o0 s0]|] eqn:E0; [|discriminate]. injection B as -> ->. exists (out s0). split; [reflexivity|].
    intros before. exists n. pose proof (bl_interp G n t (with_out s []) before) as B. rewrite E0, after_out, out_out in B. cbn [with_out out] in B. rewrite app_nil_r in B. exact B.
  Qed.
  Lemma runs_out p s o s' : runs p s o s' -> exists d, out s' = out s ++ d /\ forall before, runs p (with_out s before) o (with_out s' (before ++ d)).
  Proof.
    induction 1 as [s|e p s v s1 o s' E Hv R IH|e p s o s1 E F|e p s s1 E A].
    - exists []. rewrite app_nil_r. split; [reflexivity|]. intros before. rewrite app_nil_r. constructor.
    - destruct (C146_write_only _ _ _ _ E) as (d1 & H1 & B1). destruct IH as (d2 & H2 & B2). unfold printed in *.
      destruct (isAssign e) eqn:A.
      + exists (d1 ++ d2). split; [rewrite H2, H1, app_assoc; reflexivity|]. intros before. eapply run_statement; [apply B1|rewrite A; auto|].
        unfold printed. rewrite A, app_assoc. apply B2.
      + exists (d1 ++ [v] ++ d2). split; [rewrite H2; cbn [out]; rewrite H1, <- !app_assoc; reflexivity|]. intros before. eapply run_statement; [apply B1|rewrite A; exact Hv|].
        unfold printed. rewrite A. cbn [with_out envs pkgs origin out ext]. replace (before ++ d1 ++ [v] ++ d2) with (((before ++ d1) ++ [v]) ++ d2) by (rewrite <- !app_assoc; reflexivity). exact (B2 ((before ++ d1) ++ [v])).
    - destruct (C146_write_only _ _ _ _ E) as (d1 & H1 & B1). exists d1. split; [exact H1|]. intros before. eapply run_failed; [apply B1|exact F].
    - destruct (C146_write_only _ _ _ _ E) as (d1 & H1 & B1). exists d1. split; [exact H1|]. intros before. eapply run_nothing; [apply B1|exact A].
  Qed.
  Theorem C146_program p s o s' : runs p s o s' -> exists d, out s' = out s ++ d /\ forall before, runs p (with_out s before) o (with_out s' (before ++ d)).
  Proof. apply runs_out. Qed.

  (* ---------- C147 ---------- *)
  (* the text given to ⍎ has been parsed to p *)
  Definition executes (p : list expr) (s : st) (o : outcome value) (s' : st) : Prop := exists n, execute G n (Ok p) s = Some (o, s').
  (* The statements of p are evaluated one after the other, without printing their values:
     for each one, what it prints by itself and its value *)
  Inductive history : list expr -> st -> list (list value * value) -> st -> Prop :=
  | hist_nil s : history [] s [] s
  | hist_cons e p s d v s1 l s' : evaluates e s v s1 -> out s1 = out s ++ d -> history p s1 l s' -> history (e :: p) s ((d, v) :: l) s'.
  Lemma all_mono n m p : (n <= m)%nat -> le (EvalProgram G n p) (EvalProgram G m p).
  Proof. intros H. unfold EvalProgram. induction p as [|e p IH]; cbn [mmap]; [apply le_refl|]. apply le_bind; [apply interp_mono, H|]. intros v. apply le_bind; [exact IH|]. intros. apply le_refl. Qed.
  Lemma history_eval p s l s' : history p s l s' -> exists n, EvalProgram G n p s = Some (Ok (map snd l), s').
  Proof.
    induction 1 as [s|e p s d v s1 l s' [n1 E] _ _ [n2 IH]]; [exists 0%nat; reflexivity|]. exists (n1 + n2)%nat. unfold EvalProgram. cbn [mmap]. unfold mbind at 1.
    rewrite (interp_mono G n1 (n1 + n2) _ ltac:(lia) _ _ E). unfold mbind. pose proof (all_mono n2 (n1 + n2) p ltac:(lia) _ _ IH) as Q. unfold EvalProgram in Q. rewrite Q. reflexivity.
  Qed.
  Lemma eval_history n p : forall s vs s', EvalProgram G n p s = Some (Ok vs, s') -> exists l, history p s l s' /\ map snd l = vs.
  Proof.
    unfold EvalProgram. induction p as [|e p IH]; intros s vs s' H; cbn [mmap] in H.
    - injection H as <- <-. exists []. split; [constructor|reflexivity].
    - unfold mbind at 1 in H. destruct (interp G n (TEval e) s) as [[[v| |] s1]|] eqn:E; try discriminate. unfold mbind in H.
      destruct (mmap _ p s1) as [[[ws| |] s2]|] eqn:E2; try discriminate. injection H as <- <-. destruct (IH _ _ _ E2) as (l & Hl & <-).
      destruct (C146_write_only (TEval e) s (Ok v) s1 (ex_intro _ n E)) as (d & Hd & _). exists ((d, v) :: l). split; [|reflexivity]. econstructor; [exists n; exact E|exact Hd|exact Hl].
  Qed.
  Lemma history_out p s l s' : history p s l s' -> out s' = out s ++ flat_map fst l.
  Proof. induction 1 as [s|e p s d v s1 l s' E H _ IH]; cbn [flat_map fst]; [rewrite app_nil_r; reflexivity|]. rewrite IH, H, app_assoc. reflexivity. Qed.
  Lemma print_all vs : forall s, Forall (fun v => v <> VNil) vs -> exists u, mmap (@println D X) vs s = Some (Ok u, with_out s (out s ++ vs)).
  Proof.
    induction vs as [|v vs IH]; intros s H; cbn [mmap]; [exists []; rewrite app_nil_r, out_id; reflexivity|]. inversion H as [|? ? H1 H2]; subst.
    destruct (IH (with_out s (out s ++ [v])) H2) as [u E]. exists (tt :: u). unfold mbind at 1.
    replace (println v s) with (@Some (outcome unit * st) (Ok tt, with_out s (out s ++ [v]))) by (destruct v; try reflexivity; congruence).
    unfold mbind. rewrite E. cbn [with_out out mret]. rewrite <- app_assoc. reflexivity.
  Qed.
  Lemma print_nil vs : forall s, ~ Forall (fun v => v <> VNil) vs -> exists s', mmap (@println D X) vs s = Some (Panic, s').
  Proof.
    induction vs as [|v vs IH]; intros s H; [exfalso; apply H; constructor|]. cbn [mmap]. assert (Hv : v = VNil \/ v <> VNil) by (destruct v; auto; right; discriminate).
    destruct Hv as [->|Hv]; [exists s; reflexivity|]. unfold mbind at 1. replace (println v s) with (@Some (outcome unit * st) (Ok tt, with_out s (out s ++ [v]))) by (destruct v; try reflexivity; congruence).
    destruct (IH (with_out s (out s ++ [v]))) as [s' E]; [intros F; apply H; constructor; auto|]. exists s'. unfold mbind. rewrite E. reflexivity.
  Qed.
  Lemma nn_map (l : list (list value * value)) : Forall (fun v => v <> VNil) (map snd l) -> Forall (fun dv => snd dv <> VNil) l.
  Proof. intros F. induction l as [|x l IH]; [constructor|]. inversion F; subst. constructor; auto. Qed.
  Lemma map_nn (l : list (list value * value)) : Forall (fun dv => snd dv <> VNil) l -> Forall (fun v => v <> VNil) (map snd l).
  Proof. induction 1; cbn; constructor; auto. Qed.
  Lemma nil_dec (vs : list value) : Forall (fun v => v <> VNil) vs \/ ~ Forall (fun v => v <> VNil) vs.
  Proof.
    induction vs as [|v vs IH]; [left; constructor|]. assert (Hv : v = VNil \/ v <> VNil) by (destruct v; auto; right; discriminate).
    destruct Hv as [->|Hv]; [right; intros H; inversion H; congruence|]. destruct IH as [IH|IH]; [left; constructor; auto|right; intros H; inversion H; auto].
  Qed.
  (* ⍎ has a value exactly if every statement has one: it is the value of the last statement.
     The values of the others are printed after everything the statements print by themselves. *)
  Theorem C147_value p s w s' : p <> [] ->
    (executes p s (Ok w) s' <->
     exists l d s1, history p s (l ++ [(d, w)]) s1 /\ Forall (fun dv => snd dv <> VNil) l /\
       s' = with_out s1 (out s ++ flat_map fst l ++ d ++ map snd l)).
  Proof.
    intros Hp. split.
    - intros [n H]. unfold execute in H. unfold mbind at 1 in H. destruct (EvalProgram G n p s) as [[[vs| |] s1]|] eqn:E; try discriminate.
      destruct (eval_history _ _ _ _ _ E) as (l & Hl & <-). assert (Hn : l <> []) by (inversion Hl; subst; congruence).
      destruct (exists_last Hn) as (l0 & [d v] & ->). rewrite map_app in H. cbn [map snd] in H.
      destruct (map snd l0 ++ [v]) as [|y ys] eqn:Ey; [destruct (map snd l0); discriminate|]. rewrite <- Ey in H. clear y ys Ey. rewrite removelast_last, last_last in H.
      unfold mbind in H. destruct (nil_dec (map snd l0)) as [F|F].
      + destruct (print_all _ s1 F) as [u Eu]. rewrite Eu in H. injection H as <- <-. exists l0, d, s1. split; [exact Hl|]. split; [exact (nn_map l0 F)|].
        rewrite (history_out _ _ _ _ Hl), flat_map_app. cbn [flat_map fst]. rewrite app_nil_r, <- !app_assoc. reflexivity.
      + destruct (print_nil _ s1 F) as [s2 Eu]. rewrite Eu in H. discriminate.
    - intros (l & d & s1 & Hl & F & ->). destruct (history_eval _ _ _ _ Hl) as [n E]. exists n. unfold execute. unfold mbind at 1. rewrite E, map_app. cbn [map snd].
      destruct (map snd l ++ [w]) as [|y ys] eqn:Ey; [destruct (map snd l); discriminate|]. rewrite <- Ey. clear y ys Ey. rewrite removelast_last, last_last.
      destruct (print_all (map snd l) s1) as [u Eu]; [exact (map_nn l F)|]. unfold mbind. rewrite Eu. rewrite (history_out _ _ _ _ Hl), flat_map_app. cbn [flat_map fst].
      rewrite app_nil_r, <- !app_assoc. reflexivity.
  Qed.
  (* an empty text gives an empty array *)
  Theorem C147_nothing s : executes [] s (Ok (VD (l_emptyD G))) s.
  Proof. exists 0%nat. reflexivity. Qed.
  (* if a statement fails ⍎ fails the same way, and no value of the statements before is printed *)
  Theorem C147_failed p q e s l s1 o s2 : history p s l s1 -> ends (TEval e) s1 o s2 -> failed o ->
    executes (p ++ e :: q) s o s2 /\ exists d, out s2 = out s ++ flat_map fst l ++ d.
  Proof.
    intros H [n2 E] F. split.
    - assert (Q : exists n, EvalProgram G n (p ++ e :: q) s = Some (match o with Ok _ => Ok [] | Err => Err | Panic => Panic end, s2)).
      { induction H as [s|e0 p s d v s1 l s' [n1 E1] _ _ IH].
        - exists n2. unfold EvalProgram. cbn [app mmap]. unfold mbind at 1. rewrite E. destruct F as [-> | ->]; reflexivity.
        - destruct (IH E) as [n3 E3]. exists (n1 + n3)%nat. unfold EvalProgram in *. cbn [app mmap]. unfold mbind at 1. rewrite (interp_mono G n1 (n1 + n3) _ ltac:(lia) _ _ E1).
          pose proof (all_mono n3 (n1 + n3) (p ++ e :: q) ltac:(lia) _ _ E3) as E4. unfold EvalProgram in E4. unfold mbind. rewrite E4. destruct F as [-> | ->]; reflexivity. }
      destruct Q as [n Q]. exists n. unfold execute. unfold mbind at 1. rewrite Q. destruct F as [-> | ->]; reflexivity.
    - destruct (C146_write_only (TEval e) s1 o s2 (ex_intro _ n2 E)) as (d & Hd & _). exists d. rewrite Hd, (history_out _ _ _ _ H), app_assoc. reflexivity.
  Qed.
  (* Compared with the same text as a program: the same values are computed in the same
     order with the same effects, but a program prints a value as soon as it has it, and
     not the values of assignments. *)
  Fixpoint program_prints (p : list expr) (l : list (list value * value)) : list value :=
    match p, l with
    | e :: p', (d, v) :: l' => d ++ (if isAssign e then [] else [v]) ++ program_prints p' l'
    | _, _ => []
    end.
  Lemma history_shift p s l s' : history p s l s' -> forall before, exists o, history p (with_out s before) l (with_out s' o).
  Proof.
    induction 1 as [s|e p s d v s1 l s' E Hd _ IH]; intros before; [exists before; constructor|].
    destruct (C146_write_only _ _ _ _ E) as (d' & Hd' & B). assert (d' = d) as -> by (rewrite Hd in Hd'; apply app_inv_head in Hd'; auto).
    destruct (IH (before ++ d)) as [o Ho]. exists o. econstructor; [apply B|reflexivity|exact Ho].
  Qed.
  Theorem C147_program p s s' : runs p s (Ok tt) s' ->
    exists l s1, history p s l s1 /\ s' = with_out s1 (out s ++ program_prints p l).
  Proof.
    remember (Ok tt) as ok. induction 1 as [s|e p s v s1 o s' E Hv R IH|e p s o s1 E F|e p s s1 E A]; try discriminate.
    - exists [], s. split; [constructor|]. cbn [program_prints]. rewrite app_nil_r, out_id. reflexivity.
    - destruct (IH Heqok) as (l & s2 & Hl & ->). destruct (C146_write_only _ _ _ _ E) as (d & Hd & _).
      assert (Es : with_out (printed e v s1) (out s1) = s1) by (unfold printed; destruct (isAssign e); [apply out_id|exact (out_id s1)]).
      destruct (history_shift _ _ _ _ Hl (out s1)) as [o2 Ho]. rewrite Es in Ho. exists ((d, v) :: l), (with_out s2 o2). split; [econstructor; eassumption|].
      rewrite out_out. f_equal. cbn [program_prints]. unfold printed. destruct (isAssign e); [rewrite Hd|cbn [out]; rewrite Hd]; rewrite <- !app_assoc; reflexivity.
  Qed.
  (* so if a program ends well and none of its values is missing, ⍎ of its text ends well too,
     with the same variables, packages, index origin and other state *)
  Theorem C147_compared p s s' : p <> [] -> runs p s (Ok tt) s' ->
    exists l s1, history p s l s1 /\
      (Forall (fun dv => snd dv <> VNil) l -> exists w o, executes p s (Ok w) (with_out s' o) /\ In w (map snd l)).
  Proof.
    intros Hp R. destruct (C147_program p s s' R) as (l & s1 & Hl & ->). exists l, s1. split; [exact Hl|]. intros F.
    assert (Hn : l <> []) by (inversion Hl; subst; congruence). destruct (exists_last Hn) as (l0 & [d w] & ->). apply Forall_app in F as [F _].
    exists w, (out s ++ flat_map fst l0 ++ d ++ map snd l0). split; [|rewrite map_app; apply in_or_app; right; left; reflexivity].
    apply (C147_value p s w _ Hp). exists l0, d, s1. repeat split; auto.
  Qed.
End Props.

(* ⎕←7 ⋄ A←6 ⋄ 5: as a program prints 7 5, as a text given to ⍎ prints 7 7 6 and has the value 5 *)
Definition three : list (expr Z) := [assign Quad (k 7); assign (Num "A") (k 6); k 5].
Example C147_example : (exists s', runs toy three toy0 (Ok tt) s' /\ out s' = [VD 7%Z; VD 5%Z]) /\
  (exists s', executes toy three toy0 (Ok (VD 5%Z)) s' /\ out s' = [VD 7%Z; VD 7%Z; VD 6%Z] /\ Lookup toy s' (Num "A") = VD 6%Z).
Proof.
  split; eexists; (split; [|]).
  - apply (C97_statements toy); exists 10%nat; reflexivity.
  - reflexivity.
  - exists 10%nat; reflexivity.
  - split; reflexivity.
Qed.
Example C146_example : ends toy (TEval (assign Quad (k 7))) toy0 (Ok (VD 7%Z)) (with_out toy0 [VD 7%Z]) /\
  ends toy (TEval (assign Quad (k 7))) (with_out toy0 [VD 1%Z]) (Ok (VD 7%Z)) (with_out toy0 [VD 1%Z; VD 7%Z]).
Proof. split; exists 10%nat; reflexivity. Qed.
Print Assumptions C146_write_only. Print Assumptions C146_program. Print Assumptions C147_value. Print Assumptions C147_nothing. Print Assumptions C147_failed. Print Assumptions C147_program. Print Assumptions C147_compared.
