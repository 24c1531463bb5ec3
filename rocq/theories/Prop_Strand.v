(* Prop_Strand.v -- C171: values side by side and lists. *)
From Coq Require Import String List Lia.
From Verif Require Import Base M_Syntax M_Eval S_Eval P_Eval Prop_Eval.
Import ListNotations.
Open Scope list_scope.

Section C171.
  Context {D X : Type} (G : lang D X).
  Local Notation value := (value D). Local Notation st := (st D X). Local Notation expr := (expr D).
  Local Notation M := (@M D X). Local Notation ends := (ends G). Local Notation evaluates := (evaluates G).

  (* What can be an element of an array: not an array, a list, a function or a name without a value. *)
  Definition element (v : value) : Prop :=
    match v with VD d => l_isArr G d = false | VFn _ | VId _ | VList _ => False | _ => True end.
  (* The members are evaluated from left to right; the first one that fails is the last one that is evaluated. *)
  Inductive left_to_right {A} (one : A -> st -> outcome value -> st -> Prop) : list A -> st -> outcome (list value) -> st -> Prop :=
  | lr_done s : left_to_right one [] s (Ok []) s
  | lr_next x l s v s1 vs s2 : one x s (Ok v) s1 -> left_to_right one l s1 (Ok vs) s2 -> left_to_right one (x :: l) s (Ok (v :: vs)) s2
  | lr_first_error x l s s1 : one x s Err s1 -> left_to_right one (x :: l) s Err s1
  | lr_first_panic x l s s1 : one x s Panic s1 -> left_to_right one (x :: l) s Panic s1
  | lr_later_error x l s v s1 s2 : one x s (Ok v) s1 -> left_to_right one l s1 Err s2 -> left_to_right one (x :: l) s Err s2
  | lr_later_panic x l s v s1 s2 : one x s (Ok v) s1 -> left_to_right one l s1 Panic s2 -> left_to_right one (x :: l) s Panic s2.
  (* a member of a strand, of a list (nothing between two semicolons is the empty array) and of an index *)
  Inductive strand_member (e : expr) (s : st) : outcome value -> st -> Prop :=
  | sm_value v s' : evaluates e s v s' -> element v -> strand_member e s (Ok v) s'
  | sm_refused v s' : evaluates e s v s' -> ~ element v -> strand_member e s Err s'
  | sm_failed o s' : ends (TEval e) s o s' -> failed o -> strand_member e s o s'.
  Definition list_member (e : option expr) (s : st) (o : outcome value) (s' : st) : Prop :=
    match e with Some e => ends (TEval e) s o s' | None => o = Ok (VD (l_emptyD G)) /\ s' = s end.
  (* the outcome of the whole *)
  Definition whole (f : list value -> value) (o : outcome (list value)) : outcome value :=
    match o with Ok vs => Ok (f vs) | Err => Err | Panic => Panic end.

  Lemma isScalar_element v : isScalar G v = true <-> element v.
  Proof. destruct v; cbn; intuition (try discriminate). - apply Bool.negb_true_iff. assumption. - apply Bool.negb_true_iff. assumption. Qed.
  Lemma lr_iff {A} (one two : A -> st -> outcome value -> st -> Prop) l : (forall x s o s', one x s o s' <-> two x s o s') ->
    forall s o s', left_to_right one l s o s' <-> left_to_right two l s o s'.
  Proof.
    intros H s o s'. split; induction 1;
      [apply lr_done|eapply lr_next; [apply H|]|apply lr_first_error, H|apply lr_first_panic, H|eapply lr_later_error; [apply H|]|eapply lr_later_panic; [apply H|]
      |apply lr_done|eapply lr_next; [apply H|]|apply lr_first_error, H|apply lr_first_panic, H|eapply lr_later_error; [apply H|]|eapply lr_later_panic; [apply H|]]; eassumption.
  Qed.
  Lemma mono_mmap {A} (F : (task D X -> M value) -> A -> M value) l : (forall x, mono (fun i => F i x)) -> mono (fun i => mmap (F i) l).
  Proof. intros H a b Hab. apply le_mmap. intros x. apply (H x), Hab. Qed.
  Lemma conv_mmap {A} (F : (task D X -> M value) -> A -> M value) : (forall x, mono (fun i => F i x)) -> forall l s o s',
    conv G (fun i => mmap (F i) l) s o s' <-> left_to_right (fun x => conv G (fun i => F i x)) l s o s'.
  Proof.
    intros HF l. induction l as [|x l IH]; intros s o s'.
    - cbn [mmap]. rewrite conv_ret. split; [intros [-> ->]; apply lr_done|intros H; inversion H; auto].
    - cbn [mmap]. rewrite (conv_bind G (fun i => F i x) (fun i y => mbind (mmap (F i) l) (fun ys => mret (y :: ys)))); [|apply HF|].
      2:{ intros y. apply (mono_bind (fun i => mmap (F i) l) (fun _ ys => mret (y :: ys))); [apply mono_mmap, HF|intros; apply mono_const]. }
      assert (E : forall y s1, conv G (fun i => mbind (mmap (F i) l) (fun ys => mret (y :: ys))) s1 o s' <->
                    (exists ys, left_to_right (fun x => conv G (fun i => F i x)) l s1 (Ok ys) s' /\ o = Ok (y :: ys)) \/ (exists o1, failed o1 /\ left_to_right (fun x => conv G (fun i => F i x)) l s1 o1 s' /\ o = fmap_fail o1)).
      { intros y s1. rewrite (conv_bind G (fun i => mmap (F i) l) (fun _ ys => mret (y :: ys))); [|apply mono_mmap, HF|intros; apply mono_const]. split.
        - intros [(ys & s2 & H1 & H2)|(o1 & H1 & H2 & H3)].
          + apply conv_ret in H2 as [-> ->]. left. exists ys. split; [apply IH, H1|reflexivity].
          + right. exists o1. split; [exact H1|]. split; [apply IH, H2|exact H3].
        - intros [(ys & H1 & ->)|(o1 & H1 & H2 & ->)].
          + left. exists ys, s'. split; [apply IH, H1|apply conv_ret; auto].
          + right. exists o1. split; [exact H1|]. split; [apply IH, H2|reflexivity]. }
      split.
      + intros [(y & s1 & H1 & H2)|(o1 & Ho & H1 & ->)].
        * apply E in H2 as [(ys & H2 & ->)|(o1 & Ho & H2 & ->)]; [eapply lr_next; eassumption|].
          destruct Ho as [-> | ->]; [eapply lr_later_error; eassumption|eapply lr_later_panic; eassumption].
        * destruct Ho as [-> | ->]; [apply lr_first_error; exact H1|apply lr_first_panic; exact H1].
      + intros H. inversion H; subst.
        * left. do 2 eexists. split; [eassumption|]. apply E. left. eexists. split; [eassumption|reflexivity].
        * right. exists Err. split; [left; reflexivity|]. split; [assumption|reflexivity].
        * right. exists Panic. split; [right; reflexivity|]. split; [assumption|reflexivity].
        * left. do 2 eexists. split; [eassumption|]. apply E. right. exists Err. split; [left; reflexivity|]. split; [assumption|reflexivity].
        * left. do 2 eexists. split; [eassumption|]. apply E. right. exists Panic. split; [right; reflexivity|]. split; [assumption|reflexivity].
  Qed.
  Lemma conv_whole {A} (F : (task D X -> M value) -> A -> M value) (f : list value -> value) l s o s' : (forall x, mono (fun i => F i x)) ->
    conv G (fun i => mbind (mmap (F i) l) (fun vs => mret (f vs))) s o s' <-> exists o1, left_to_right (fun x => conv G (fun i => F i x)) l s o1 s' /\ o = whole f o1.
  Proof.
    intros HF. rewrite (conv_bind G (fun i => mmap (F i) l) (fun _ vs => mret (f vs))); [|apply mono_mmap, HF|intros; apply mono_const]. split.
    - intros [(vs & s1 & H1 & H2)|(o1 & Ho & H1 & ->)].
      + apply conv_ret in H2 as [-> ->]. exists (Ok vs). split; [apply (conv_mmap F HF), H1|reflexivity].
      + exists o1. split; [apply (conv_mmap F HF), H1|destruct Ho as [-> | ->]; reflexivity].
    - intros (o1 & H1 & ->). apply (conv_mmap F HF) in H1. destruct o1 as [vs| |]; [left; exists vs, s'; split; [exact H1|apply conv_ret; auto]| |]; right.
      + exists Err. split; [left; reflexivity|]. split; [exact H1|reflexivity].
      + exists Panic. split; [right; reflexivity|]. split; [exact H1|reflexivity].
  Qed.

  (* Values side by side: the array of the values. *)
  Theorem C171_strand es s o s' : (2 <= List.length es)%nat ->
    ends (TEval (EArray es)) s o s' <-> exists o1, left_to_right strand_member es s o1 s' /\ o = whole (fun vs => VD (l_mkarr G vs)) o1.
  Proof.
    intros Hl. rewrite conv_step. set (F := fun (i : task D X -> M value) e => mbind (i (TEval e)) (fun v => if isScalar G v then mret v else mfail)).
    assert (HF : forall x, mono (fun i => F i x)) by (intros x; apply (mono_bind (fun i => i (TEval x)) (fun _ v => if isScalar G v then mret v else mfail)); [apply mono_self|intros; apply mono_const]).
    assert (HM : forall e s o s', conv G (fun i => F i e) s o s' <-> strand_member e s o s').
    { intros e u p u'. unfold F. rewrite (conv_bind G (fun i => i (TEval e)) (fun _ v => if isScalar G v then mret v else mfail)); [|apply mono_self|intros; apply mono_const]. split.
      - intros [(v & s1 & H1 & H2)|(o1 & Ho & H1 & ->)].
        + destruct (isScalar G v) eqn:Ev.
          * apply conv_ret in H2 as [-> ->]. apply sm_value; [exact H1|apply isScalar_element, Ev].
          * apply conv_fail in H2 as [-> ->]. eapply sm_refused; [exact H1|]. intros N. apply isScalar_element in N. congruence.
        + destruct Ho as [-> | ->]; apply sm_failed; [exact H1|left; reflexivity|exact H1|right; reflexivity].
      - intros H. destruct H as [v u' H1 H2|v u' H1 H2|q u' H1 H2].
        + left. exists v, u'. split; [exact H1|]. apply isScalar_element in H2. rewrite H2. apply conv_ret. auto.
        + left. exists v, u'. split; [exact H1|]. destruct (isScalar G v) eqn:Ev; [apply isScalar_element in Ev; contradiction|]. apply conv_fail. auto.
        + right. exists q. split; [exact H2|]. split; [exact H1|]. destruct H2 as [-> | ->]; reflexivity. }
    destruct es as [|e1 [|e2 es]]; [cbn in Hl; lia|cbn in Hl; lia|].
    change (conv G (fun i => mbind (mmap (F i) (e1 :: e2 :: es)) (fun vs => mret (VD (l_mkarr G vs)))) s o s' <-> exists o1, left_to_right strand_member (e1 :: e2 :: es) s o1 s' /\ o = whole (fun vs => VD (l_mkarr G vs)) o1).
    rewrite (conv_whole F _ _ _ _ _ HF). split; intros (o1 & H1 & H2); exists o1; (split; [|exact H2]); [apply (lr_iff _ _ _ HM), H1|apply (lr_iff _ _ _ HM) in H1; exact H1].
  Qed.
  (* One value alone is that value, nothing the empty array. *)
  Theorem C171_single e s o s' : ends (TEval (EArray [e])) s o s' <-> ends (TEval e) s o s'.
  Proof. rewrite conv_step. reflexivity. Qed.
  Theorem C171_nothing s o s' : ends (TEval (EArray [])) s o s' <-> o = Ok (VD (l_emptyD G)) /\ s' = s.
  Proof. rewrite conv_step. apply conv_ret. Qed.
  (* A list: any values. *)
  Theorem C171_list l s o s' : ends (TEval (EList l)) s o s' <-> exists o1, left_to_right list_member l s o1 s' /\ o = whole VList o1.
  Proof.
    rewrite conv_step. set (F := fun (i : task D X -> M value) (e : option expr) => match e with None => mret (VD (l_emptyD G)) | Some e => i (TEval e) end).
    assert (HF : forall x, mono (fun i => F i x)) by (intros [x|]; [apply mono_self|exact (mono_const (mret (VD (l_emptyD G))))]).
    assert (HM : forall e s o s', conv G (fun i => F i e) s o s' <-> list_member e s o s') by (intros [e|] u p u'; [reflexivity|apply conv_ret]).
    change (conv G (fun i => mbind (mmap (F i) l) (fun vs => mret (VList vs))) s o s' <-> exists o1, left_to_right list_member l s o1 s' /\ o = whole VList o1).
    rewrite (conv_whole F _ _ _ _ _ HF). split; intros (o1 & H1 & H2); exists o1; (split; [|exact H2]); [apply (lr_iff _ _ _ HM), H1|apply (lr_iff _ _ _ HM) in H1; exact H1].
  Qed.
  (* The indexes in brackets. *)
  Theorem C171_index l s o s' : ends (TEval (EIdx l)) s o s' <-> exists o1, left_to_right (fun e => ends (TEval e)) l s o1 s' /\ o = whole VIdx o1.
  Proof.
    rewrite conv_step. apply (conv_whole (fun i e => i (TEval e))). intros x. apply mono_self.
  Qed.
  (* So a strand of names gives the array of their values, if they have values that are not arrays, and changes nothing. *)
  Theorem C171_names xs vs s : (2 <= List.length xs)%nat -> Forall2 (fun x v => Lookup G s x = v /\ v <> VNil /\ element v) xs vs ->
    evaluates (EArray (map EVar xs)) s (VD (l_mkarr G vs)) s.
  Proof.
    intros Hl F. apply C171_strand; [rewrite map_length; exact Hl|]. exists (Ok vs). split; [|reflexivity]. clear Hl.
    induction F as [|x v xs vs (H1 & H2 & H3) F IH]; [apply lr_done|]. cbn [map]. eapply lr_next; [|exact IH]. apply sm_value; [|exact H3].
    exists 1%nat. cbn [interp step]. rewrite H1. destruct v; try reflexivity. contradiction.
  Qed.
  (* A name without a value, a function or an array in a strand is an error, and what is at its right is not evaluated. *)
  Theorem C171_refused l e r s vs s1 v s2 : (1 <= List.length (l ++ r))%nat -> left_to_right strand_member l s (Ok vs) s1 -> evaluates e s1 v s2 -> ~ element v ->
    ends (TEval (EArray (l ++ e :: r))) s Err s2.
  Proof.
    intros Hl HL He Hv. apply C171_strand; [rewrite app_length in *; cbn [List.length]; lia|]. exists Err. split; [|reflexivity]. clear Hl.
    revert s vs HL. induction l as [|x l IH]; intros s vs HL; cbn [app].
    - inversion HL; subst. apply lr_first_error. eapply sm_refused; eassumption.
    - inversion HL; subst. eapply lr_later_error; [eassumption|]. eapply IH; eassumption.
  Qed.
End C171.
Print Assumptions C171_strand. Print Assumptions C171_single. Print Assumptions C171_nothing. Print Assumptions C171_list. Print Assumptions C171_index. Print Assumptions C171_names. Print Assumptions C171_refused.
(* In this language the numbers from 100 are arrays; ! writes its argument to the log. *)
Definition toy100 : lang Z (list Z) :=
  mkLang (registered toy_history) (fun _ => []) (fun _ _ _ => CRet Err) 99%Z (fun z => (100 <=? z)%Z) (fun vs => 100 + Z.of_nat (List.length vs))%Z (fun z => None)
    (fun z => z) (fun _ => None) (fun _ _ _ _ => CRet Err) (fun _ => 0%Z) (fun _ x => Ok x) (fun _ => true).
Example C171_example : exists s1 s2,
  evaluates toy100 (EArray [app1 "!" (k 7); app1 "!" (k 5)]) toy0 (VD 102%Z) s1 /\ ext s1 = [7%Z; 5%Z] /\
  ends toy100 (TEval (EArray [app1 "!" (k 7); app1 "!" (k 150); app1 "!" (k 5)])) toy0 Err s2 /\ ext s2 = [7%Z; 150%Z].
Proof. do 2 eexists. split; [exists 9%nat; vm_compute; reflexivity|]. split; [reflexivity|]. split; [exists 9%nat; vm_compute; reflexivity|]. reflexivity. Qed.
