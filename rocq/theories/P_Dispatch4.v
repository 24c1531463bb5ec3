(* The functions that never fail at once, and the elementary and logical ones. *)
From Coq Require Import String List ZArith Bool Lia.
From Verif Require Import Base M_Array P_Array M_Dispatch S_Dispatch P_Dispatch P_Dispatch2 P_Dispatch3.
Import ListNotations.
Open Scope Z_scope.

Lemma IsScalar_sound : sound (IsScalar None) (fun v => negb (isArray v)).
Proof. intros V. destruct V; cbn; split; try discriminate; intros v H; inversion H; reflexivity. Qed.

Lemma safe_M : forall s n d p e, sound d p -> (forall r, p r = true -> e None r <> Panic) -> safe (mkH s n (Monadic (Some d)) e).
Proof. intros s n d p e S H L R. cbn [hdom hentry]. destruct (Monadic_answer d p S L R) as [A B]. split; [exact A|]. intros l r E. destruct (B l r E) as (_ & -> & P). auto. Qed.
Lemma safe_M0 : forall s n e, (forall r, e None r <> Panic) -> safe (mkH s n (Monadic None) e).
Proof. intros s n e H L R. cbn [hdom hentry]. destruct (nil_answer L R) as [[A B] _]. split; [exact A|]. intros l r E. destruct (B l r E) as (_ & -> & ->). auto. Qed.
Lemma safe_S : forall s n dl dr pl pr e, sound dl pl -> sound dr pr -> (forall l r, pl l = true -> pr r = true -> e (Some l) r <> Panic) ->
  safe (mkH s n (Dyadic (Some (Split (Some dl) (Some dr)))) e).
Proof. intros s n dl dr pl pr e S1 S2 H L R. cbn [hdom hentry]. destruct (Split_answer dl dr pl pr S1 S2 L R) as [A B]. split; [exact A|]. intros l r E. destruct (B l r E) as (l0 & l1 & _ & -> & P & Q). auto. Qed.
Lemma safe_SL : forall s n dl pl e, sound dl pl -> (forall l r, pl l = true -> e (Some l) r <> Panic) -> safe (mkH s n (Dyadic (Some (Split (Some dl) None))) e).
Proof. intros s n dl pl e S1 H L R. cbn [hdom hentry]. destruct (SplitL_answer dl pl S1 L R) as [A B]. split; [exact A|]. intros l r E. destruct (B l r E) as (l0 & l1 & _ & _ & -> & P & ->). auto. Qed.
Lemma safe_SR : forall s n dr pr e, sound dr pr -> (forall l r, pr r = true -> e (Some l) r <> Panic) -> safe (mkH s n (Dyadic (Some (Split None (Some dr)))) e).
Proof. intros s n dr pr e S1 H L R. cbn [hdom hentry]. destruct (SplitR_answer dr pr S1 L R) as [A B]. split; [exact A|]. intros l r E. destruct (B l r E) as (l0 & -> & -> & P). auto. Qed.
Lemma safe_D0 : forall s n e, (forall l r, e (Some l) r <> Panic) -> safe (mkH s n (Dyadic None) e).
Proof. intros s n e H L R. cbn [hdom hentry]. destruct (nil_answer L R) as [_ [A B]]. split; [exact A|]. intros l r E. destruct (B l r E) as (l0 & -> & -> & ->). auto. Qed.
Lemma safe_arrays : forall s n, safe (mkH s n arrays array2_entry).
Proof.
  intros s n L R. cbn [hdom hentry].
  assert (G : forall l' r', (isArray l' || isArray r' = true)%bool -> array2_entry (Some l') r' <> Panic).
  { intros l' r' Q. unfold array2_entry, lv. destruct (isKind AEmpty l' || isKind AEmpty r')%bool; [discriminate|]. rewrite Q. discriminate. }
  destruct L as [l|]; [|split; discriminate]. unfold arrays.
  destruct l as [| |kl ls xl| | | | | | | |], R as [| |kr rs xr| | | | | | | |]; try (split; [discriminate|intros l r H; inversion H; apply G; reflexivity]).
  destruct (zlen xl =? 0); [split; [discriminate|intros l r H; inversion H; apply G; reflexivity]|].
  destruct (zlen xr =? 0); [split; [discriminate|intros l r H; inversion H; apply G; reflexivity]|].
  destruct (sameShape ls rs); [split; [discriminate|intros l r H; inversion H; apply G; reflexivity]|].
  destruct xl as [|x [|x' xl]]; [|split; [discriminate|intros l r H; inversion H; apply G; apply orb_true_r]|];
  destruct xr as [|y [|y' xr]]; split; try discriminate; intros l r H; inversion H; apply G; reflexivity.
Qed.

Ltac sound_tac := first
  [ apply test_sound | apply ToArray_sound | apply IsArray_sound | apply IsVector_sound | apply ToVector_sound | apply ToIndexArray_sound | apply ToVecIdx_sound
  | apply ToIndex_sound | apply ToScalarIndex_sound | apply strvec_sound | apply ToStringArray_sound | apply IsScalar_sound ].
Ltac crush_entry :=
  repeat match goal with
  | |- must true <> Panic => discriminate
  | |- Ok _ <> Panic => discriminate
  | |- Err <> Panic => discriminate
  | |- (if ?b then _ else _) <> Panic => destruct b
  end.
Ltac entry_tac := intros; unfold free, needR, needBoth, lv, obind;
  repeat match goal with H : _ = true |- _ => rewrite H; clear H end; cbn; first [discriminate|crush_entry].

Lemma roundTime_safe : safe (mkH "⌊" "roundTime" (Dyadic (Some (Split (Some (IsString None)) (Some (Or (IsTime None) (IsTimeArray None)))))) roundTime_entry).
Proof.
  eapply (safe_S _ _ _ _ isString (fun v => isKind ATime v || isNumType NTime v)%bool); [apply test_sound|apply Or_sound; (eapply sound_weaken; [apply test_sound|])|].
  - intros v ->. apply orb_true_r.
  - intros v ->. reflexivity.
  - intros l r A B. unfold roundTime_entry, lv. rewrite A. cbn [must obind]. rewrite B. discriminate.
Qed.
Lemma ToStringArray_idem : forall v, isKind AStr v = true -> ToStringArray None v = Ok (v, true).
Proof. intros v H. apply isKind_iff in H. destruct H as (d & xs & ->). reflexivity. Qed.
Lemma exec2_safe : safe (mkH "!" "exec2" (Dyadic (Some (Split (Some (ToStringArray None)) None))) exec_entry).
Proof.
  eapply safe_SL; [apply ToStringArray_sound|]. intros l r A. unfold exec_entry. rewrite (ToStringArray_idem l A). cbn [obind snd fst negb]. rewrite A. discriminate.
Qed.
Lemma exec1_safe : safe (mkH "!" "exec1" (Monadic (Some (ToStringArray None))) exec_entry).
Proof.
  eapply safe_M; [apply ToStringArray_sound|]. intros l A. unfold exec_entry. rewrite (ToStringArray_idem l A). cbn [obind snd fst negb]. rewrite A. discriminate.
Qed.

(* symbols all of whose functions are safe *)
Definition goodSymbols : list string :=
  compareSymbols ++ (["∊"; "⊥"; "⊤"; "⌹"; "⊂"; "⊃"; "⍷"; "⍕"; "⍎"; "⍋"; "⍒"; "⌷"; "⍳"; "≡"; "≢"; "?"; "⍴"; "⊣"; "⊢"; "⌶"; "∪"]%string).
Lemma arith2_safe : forall s e, asserts2 e = false -> safe (mkH s "arith2" (Dyadic (Some (Split (Some (IsScalar None)) (Some (IsScalar None))))) (arith2_entry e)).
Proof. intros s e A. eapply safe_S; [apply IsScalar_sound|apply IsScalar_sound|]. intros l r _ _. unfold arith2_entry. rewrite A. discriminate. Qed.
Lemma intidx_cases : forall v, (isKind AInt v || isKind AEmpty v)%bool = true -> exists d xs, v = Arr AInt d xs \/ v = Arr AEmpty d xs.
Proof. intros v H. apply orb_true_iff in H. destruct H as [H|H]; apply isKind_iff in H; destruct H as (d & xs & ->); eauto. Qed.
Definition intsOrNone (v : value) : bool := isKind AInt v || (isArray v && (sizeOf v =? 0)).
Lemma ToIndexArray_sound' : sound (ToIndexArray None) intsOrNone.
Proof. intros V. destruct (ToIndexArray_answer V); split; try discriminate; intros v E; inversion E; reflexivity. Qed.
Lemma ToVecIdx_sound' : forall c, sound (ToVector c (Some (ToIndexArray None))) intsOrNone.
Proof.
  intros c V. unfold ToVector, vectorTo. destruct V; cbn [propagate negb]; try apply ToIndexArray_sound'.
  destruct (zlen dims =? 1); [apply ToIndexArray_sound'|].
  destruct (zlen xs =? 0); [split; [discriminate|intros v H; injection H as <-; reflexivity]|].
  destruct (maxdim dims =? zlen xs); cbn [negb propagate]; [apply ToIndexArray_sound'|split; discriminate].
Qed.
Lemma intsOrNone_cases : forall v, intsOrNone v = true -> isArray v = true /\ (isKind AInt v = true \/ (sizeOf v =? 0) = true).
Proof. intros v H. unfold intsOrNone in H. destruct v as [| |k d xs| | | | | | | |]; try discriminate H. split; [reflexivity|]. apply orb_true_iff in H. destruct H as [H|H]; auto. Qed.

Lemma good_safe : forall c io sym, In sym goodSymbols -> Forall safe (handlesOf (registered c io) sym).
Proof.
  intros c io sym I. cbn [In goodSymbols compareSymbols app] in I.
  destruct io; repeat (destruct I as [<-|I];
    [handles; repeat apply Forall_cons; try apply Forall_nil;
     first [ apply safe_arrays
           | eapply safe_M; [apply ToArray_sound|intros r A; unfold domino_entry; rewrite A; entry_tac]
           | eapply safe_S; [apply ToVecIdx_sound'|sound_tac|intros l r A B; apply intsOrNone_cases in A; destruct A as [A1 A2];
               unfold rho2_entry, rhoChannel_entry, lv; rewrite A1; cbn [must obind]; destruct A2 as [A2|A2]; rewrite A2, ?B; entry_tac]
           | eapply safe_S; [sound_tac|sound_tac|intros l r A B; unfold find_entry, union_entry, intervalindex_entry, lv; rewrite A, B; entry_tac] | apply arith2_safe; reflexivity
           | eapply safe_M; [sound_tac|entry_tac]
           | apply safe_M0; entry_tac
           | apply safe_D0; entry_tac
           | eapply safe_SL; [sound_tac|entry_tac]
           | eapply safe_SR; [sound_tac|entry_tac]
           | eapply safe_S; [sound_tac|sound_tac|entry_tac]
           ]|]); try (destruct I; fail).
Qed.
