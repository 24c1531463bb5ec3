(* P_Lines.v -- proofs about the line buffer. *)
From Verif Require Import Base M_Scan M_Syntax M_Parse S_Parse P_Parse.
From Coq Require Import String List Bool ZArith Lia.
Import ListNotations.
Open Scope Z_scope.
Open Scope list_scope.

Lemma open_app : forall a b, open_braces (a ++ b) = open_braces a + open_braces b.
Proof. intros a b. unfold open_braces. rewrite !count_app. lia. Qed.
Lemma open_cons : forall t b, open_braces (t :: b) = (if teqb (tt t) LeftBrace then 1 else if teqb (tt t) RightBrace then -1 else 0) + open_braces b.
Proof.
  intros t b. unfold open_braces. rewrite !count_cons. destruct (teqb (tt t) LeftBrace) eqn:L.
  - assert (teqb (tt t) RightBrace = false) by (apply teqb_neq; apply teqb_eq in L; congruence). rewrite H. lia.
  - destruct (teqb (tt t) RightBrace); lia.
Qed.
Lemma open_nil : open_braces [] = 0.
Proof. reflexivity. Qed.
Definition stays (lv : Z) (l : list token) : Prop := forall a b, l = a ++ b -> 0 <= lv + open_braces a.
Lemma stays_cons : forall lv t l, 0 <= lv ->
  stays lv (t :: l) <-> stays (lv + (if teqb (tt t) LeftBrace then 1 else if teqb (tt t) RightBrace then -1 else 0)) l.
Proof.
  intros lv t l L. split.
  - intros H a b E. specialize (H (t :: a) b). rewrite open_cons in H. subst l. specialize (H eq_refl). lia.
  - intros H a b E. destruct a as [|x a]; [rewrite open_nil; lia|]. cbn in E. injection E as -> E. rewrite open_cons. specialize (H _ _ E). lia.
Qed.
Lemma braces_spec : forall l lv, 0 <= lv ->
  (stays lv l /\ braces lv l = Some (lv + open_braces l)) \/ (~ stays lv l /\ braces lv l = None).
Proof.
  induction l as [|t l IH]; intros lv L.
  - left. split; [|cbn [braces]; f_equal; rewrite open_nil; lia]. intros a b E. destruct a; [rewrite open_nil; lia|discriminate].
  - cbn [braces]. rewrite (stays_cons lv t l L). rewrite open_cons. destruct (teqb (tt t) LeftBrace).
    + destruct (IH (lv + 1) ltac:(lia)) as [[S E]|[S E]]; rewrite E; [left|right]; split; auto. f_equal. lia.
    + destruct (teqb (tt t) RightBrace).
      * destruct (lv - 1 <? 0) eqn:N.
        -- right. split; [|reflexivity]. intros S. specialize (S [] l eq_refl). rewrite open_nil in S. lia.
        -- change (lv + -1) with (lv - 1). destruct (IH (lv - 1) ltac:(lia)) as [[S E]|[S E]]; rewrite E; [left|right]; split; auto. f_equal. lia.
      * rewrite Z.add_0_r. destruct (IH lv L) as [[S E]|[S E]]; rewrite E; [left|right]; split; auto.
Qed.

Lemma prefix_app : forall (A : Type) (l1 l2 a b : list A), l1 ++ l2 = a ++ b -> (exists c, l1 = a ++ c) \/ (exists c, a = l1 ++ c /\ l2 = c ++ b).
Proof.
  induction l1 as [|x l1 IH]; intros l2 a b E; [right; exists a; auto|].
  destruct a as [|y a]; [left; exists (x :: l1); reflexivity|]. cbn in E. injection E as <- E.
  destruct (IH _ _ _ E) as [[c ->]|[c [-> ->]]]; [left; exists c; reflexivity|right; exists c; auto].
Qed.
Lemma open_join2 : forall a b, open_braces (join2 a b) = open_braces a + open_braces b.
Proof. intros a [|t b]; unfold join2; [rewrite open_nil; lia|]. rewrite !open_app. destruct (ends_open a); rewrite ?open_cons, ?open_nil; cbn; lia. Qed.
Lemma no_surplus_join2 : forall a b, no_surplus a -> (no_surplus (join2 a b) <-> stays (open_braces a) b).
Proof.
  intros a b NA. assert (L : 0 <= open_braces a) by (apply (NA a []); rewrite app_nil_r; reflexivity).
  destruct b as [|t b]; cbn [join2].
  - split; [intros _ x y E; destruct x; [rewrite open_nil; lia|discriminate]|auto].
  - set (m := if ends_open a then [] else _). assert (M : forall x y, m = x ++ y -> open_braces x = 0).
    { subst m. destruct (ends_open a); intros x y E; destruct x as [|u [|v x]]; cbn in E; try discriminate; try reflexivity.
      injection E as <- <-. reflexivity. }
    assert (M0 : open_braces m = 0) by (apply (M m []); rewrite app_nil_r; reflexivity).
    split.
    + intros N x y E. rewrite E in N. specialize (N (a ++ m ++ x) y). rewrite !open_app, M0 in N. rewrite <- !app_assoc in N. specialize (N eq_refl). lia.
    + intros S x y E. apply prefix_app in E. destruct E as [[c E]|[c [-> E]]]; [eapply NA; exact E|]. rewrite open_app.
      apply prefix_app in E. destruct E as [[d E]|[d [-> E]]]; [rewrite (M _ _ E); lia|]. rewrite open_app, M0. specialize (S _ _ E). lia.
Qed.
Lemma no_surplus_nil : no_surplus [].
Proof. intros a b E. destruct a; [rewrite open_nil; lia|discriminate]. Qed.
Lemma joined_snoc : forall ls t, joined (ls ++ [t]) = join2 (joined ls) t.
Proof. intros ls t. unfold joined. rewrite fold_left_app. reflexivity. Qed.
Lemma join2_nonempty : forall a b, b <> [] -> join2 a b <> [].
Proof. intros a [|t b] H; [congruence|]. cbn. destruct a; [destruct (ends_open []); discriminate|discriminate]. Qed.

Section Buffer.
  Context {D : Type} (G : grammar D) (C : scanner).
  Definition good (ls : list (list token)) (b : buffer) : Prop :=
    b_tokens b = joined ls /\ b_level b = open_braces (joined ls) /\ no_surplus (joined ls).
  Lemma good_new : good [] NewLineBuffer.
  Proof. split; [reflexivity|]. split; [reflexivity|apply no_surplus_nil]. Qed.
  Lemma Add_spec : forall ls b line toks, good ls b -> Scan C line = Ok toks ->
    let all := joined (ls ++ [toks]) in
    (toks = [] /\ AddLine C line b = (Ok false, b)) \/
    (toks <> [] /\ no_surplus all /\ exists b', AddLine C line b = (Ok (open_braces all =? 0), b') /\ good (ls ++ [toks]) b') \/
    (toks <> [] /\ ~ no_surplus all /\ AddLine C line b = (Err, NewLineBuffer)).
  Proof.
    intros ls b line toks (T & L & N) S. cbn zeta. unfold AddLine. rewrite S. destruct toks as [|t toks]; [left; auto|]. right.
    rewrite joined_snoc. assert (L0 : 0 <= open_braces (joined ls)) by (apply (N _ []); rewrite app_nil_r; reflexivity).
    rewrite L. destruct (braces_spec (t :: toks) _ L0) as [[S1 E]|[S1 E]]; rewrite E.
    - left. split; [discriminate|]. split; [apply no_surplus_join2; auto|]. eexists. split; [rewrite open_join2; reflexivity|].
      split; [|split].
      + rewrite joined_snoc. cbn [b_tokens]. rewrite T. unfold join2, ends_open. destruct (rev (joined ls)) as [|x r]; [reflexivity|]. destruct (teqb (tt x) LeftBrace); reflexivity.
      + rewrite joined_snoc, open_join2. reflexivity.
      + rewrite joined_snoc. apply no_surplus_join2; auto.
    - right. split; [discriminate|]. split; [|reflexivity]. rewrite no_surplus_join2 by exact N. exact S1.
  Qed.
  (* the text of a program *)
  Lemma addLines_spec : forall ls lines b0 tl, ls <> [] -> good tl b0 ->
    Forall2 (fun l t => Scan C l = Ok t) ls lines ->
    (last lines [] <> [] -> no_surplus (joined (tl ++ lines)) -> open_braces (joined (tl ++ lines)) = 0 -> addLines G C ls b0 = parse G (joined (tl ++ lines))) /\
    (last lines [] = [] \/ ~ no_surplus (joined (tl ++ lines)) \/ open_braces (joined (tl ++ lines)) <> 0 -> addLines G C ls b0 = Err).
  Proof.
    intros ls. induction ls as [|s ls IH]; intros lines b0 tl NE GD F; [congruence|].
    inversion F as [|? t ? lines' S F']; subst. cbn [addLines].
    assert (MON : no_surplus (joined (tl ++ t :: lines')) -> no_surplus (joined (tl ++ [t]))).
    { replace (tl ++ t :: lines') with ((tl ++ [t]) ++ lines') by (rewrite <- app_assoc; reflexivity).
      generalize (tl ++ [t]). clear. induction lines' as [|x l IH] using rev_ind; intros pre N; [rewrite app_nil_r in N; exact N|].
      rewrite app_assoc, joined_snoc in N. apply IH. intros a c E. unfold join2 in N. destruct x as [|y x]; [eapply N; exact E|].
      eapply N. rewrite E, <- app_assoc. reflexivity. }
    destruct (Add_spec tl b0 s t GD S) as [[E1 A]|[(E1 & N1 & b' & A & GD')|(E1 & N1 & A)]]; rewrite A; cbn [obind].
    - (* a blank line *)
      subst t. inversion F' as [|s' t' ls2 l2 S' F2]; subst.
      + cbn [last]. split; [congruence|reflexivity].
      + change (last ([] :: t' :: l2) []) with (last (t' :: l2) ([] : list token)). assert (J : joined (tl ++ [] :: t' :: l2) = joined (tl ++ t' :: l2)).
        { unfold joined. rewrite !fold_left_app. reflexivity. }
        rewrite J. apply IH; [discriminate|exact GD|exact F'].
    - inversion F' as [|s' t' ls2 l2 S' F2]; subst.
      + cbn [last]. destruct (open_braces (joined (tl ++ [t])) =? 0) eqn:O.
        * apply Z.eqb_eq in O. split; [intros _ _ _|intros [X|[X|X]]; congruence]. unfold Parse. cbn [fst]. destruct GD' as (-> & _). reflexivity.
        * apply Z.eqb_neq in O. split; [congruence|reflexivity].
      + replace (tl ++ t :: t' :: l2) with ((tl ++ [t]) ++ t' :: l2) by (rewrite <- app_assoc; reflexivity).
        change (last (t :: t' :: l2) []) with (last (t' :: l2) ([] : list token)). apply IH; [discriminate|exact GD'|exact F'].
    - split; [intros _ X; exfalso; apply N1, MON, X|]. intros _. destruct ls; reflexivity.
  Qed.
End Buffer.
