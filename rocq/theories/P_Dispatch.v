(* Proofs about the choice of functions. *)
From Coq Require Import String List ZArith Bool Lia.
From Verif Require Import Base M_Array P_Array M_Dispatch S_Dispatch.
Import ListNotations.
Open Scope Z_scope.

Lemma toIdxs_some : forall xs, Forall (fun x => exists z, index_of x z) xs -> exists l, toIdxs xs = Some l /\ length l = length xs.
Proof.
  induction 1 as [|x xs [z Hz] _ (l & E & EL)]; [exists []; auto|]. inversion Hz; subst. exists (z :: l). cbn. rewrite E, EL. auto.
Qed.
Lemma toIdxs_inv : forall xs l, toIdxs xs = Some l -> Forall (fun x => exists z, index_of x z) xs.
Proof.
  induction xs as [|x xs IH]; intros l E; [constructor|]. cbn in E. destruct (toIdx x) as [i|] eqn:EX; [|discriminate]. destruct (toIdxs xs) as [r|]; [|discriminate].
  constructor; [|eapply IH; reflexivity]. destruct x; try discriminate. cbn in EX. subst. exists i. constructor.
Qed.

(* what ToIndexArray answers *)
Inductive idx_answer (V : value) : outcome (value * bool) -> Prop :=
| ia_no : ~ indices V -> idx_answer V (Ok (V, false))
| ia_blank : blank V -> indices V -> idx_answer V (Ok (emptyArray, true))
| ia_ints : forall d xs, indices V -> ~ blank V -> idx_answer V (Ok (Arr AInt d xs, true)).
Lemma ToIndexArray_answer : forall V, idx_answer V (ToIndexArray None V).
Proof.
  intros V. destruct V as [t i|s|k d xs| | |t| |f|n|A R|t]; cbn [ToIndexArray];
    try (apply ia_no; intros H; inversion H as [v z Hi| |]; inversion Hi).
  - cbn. destruct i as [z|].
    + apply ia_ints; [eapply indices_scalar; constructor|intros B; inversion B].
    + apply ia_no. intros H. inversion H as [v z Hi| |]. inversion Hi.
  - assert (C : k = AInt \/ k <> AInt) by (destruct k; (left; reflexivity) || (right; discriminate)).
    destruct C as [->|NK].
    + cbn. apply ia_ints; [apply indices_ints|]. intros B. inversion B. congruence.
    + replace (match k with AInt => propagate None (Arr k d xs) | _ =>
         if zlen xs =? 0 then propagate None emptyArray else match toIdxs xs with Some l => propagate None (Arr AInt d (map intOf l)) | None => Ok (Arr k d xs, false) end end)
        with (if zlen xs =? 0 then propagate None emptyArray else match toIdxs xs with Some l => propagate None (Arr AInt d (map intOf l)) | None => Ok (Arr k d xs, false) end) by (destruct k; reflexivity || congruence).
      destruct xs as [|x xs].
      * cbn. apply ia_blank; [constructor; exact NK|apply indices_array; constructor].
      * replace (zlen (x :: xs) =? 0) with false by (unfold zlen; cbn [List.length]; lia).
        destruct (toIdxs (x :: xs)) as [l|] eqn:E.
        -- apply ia_ints; [apply indices_array; eapply toIdxs_inv; exact E|]. intros B. inversion B.
        -- apply ia_no. intros H. inversion H as [v z Hi|d' xs' E1|k' d' xs' F E1]; subst; [inversion Hi|congruence|].
           destruct (toIdxs_some _ F) as (l & El & _). congruence.
Qed.

(* handlers that cannot fail *)
Definition safe (h : handler) : Prop :=
  forall L R, hdom h L R <> Panic /\ forall l r, hdom h L R = Ok (l, r, true) -> hentry h l r <> Panic.
Definition sound (d : sdom) (p : value -> bool) : Prop :=
  forall V, d V <> Panic /\ forall v, d V = Ok (v, true) -> p v = true.

Lemma test_sound : forall p, sound (test p None) p.
Proof. intros p V. unfold test. destruct (p V) eqn:E; cbn; split; try discriminate; intros v H; injection H as <-; congruence. Qed.
Lemma ToArray_sound : forall c, sound (ToArray c None) isArray.
Proof. intros c V. unfold ToArray, arrayTo. destruct (isArray V) eqn:E; cbn; split; try discriminate; intros v H; injection H as <-; auto. Qed.
Lemma IsArray_sound : sound (IsArray None) isArray.
Proof. intros V. unfold IsArray, arrayTo. destruct (isArray V) eqn:E; cbn; split; try discriminate; intros v H; inversion H; subst; auto. Qed.
Lemma IsVector_sound : sound (IsVector None) isArray.
Proof.
  intros V. unfold IsVector, vectorTo. destruct V; cbn; try (split; [discriminate|intros v H; discriminate]).
  destruct (zlen dims =? 1); cbn; split; try discriminate; intros v H; inversion H; reflexivity.
Qed.
Lemma ToVector_sound : forall c, sound (ToVector c None) isArray.
Proof.
  intros c V. unfold ToVector, vectorTo. destruct V; cbn; try (split; [discriminate|intros v H; injection H as <-; reflexivity]).
  destruct (zlen dims =? 1); cbn; [split; [discriminate|intros v H; injection H as <-; reflexivity]|].
  destruct (zlen xs =? 0); cbn; [split; [discriminate|intros v H; injection H as <-; reflexivity]|].
  destruct (maxdim dims =? zlen xs); cbn; split; try discriminate; intros v H; inversion H; reflexivity.
Qed.
Lemma ToIndexArray_sound : sound (ToIndexArray None) (fun v => isKind AInt v || isKind AEmpty v).
Proof. intros V. destruct (ToIndexArray_answer V); split; try discriminate; intros v E; inversion E; reflexivity. Qed.
Lemma ToVecIdx_sound : forall c, sound (ToVector c (Some (ToIndexArray None))) (fun v => isKind AInt v || isKind AEmpty v).
Proof.
  intros c V. unfold ToVector, vectorTo. destruct V; cbn [propagate negb]; try apply ToIndexArray_sound.
  destruct (zlen dims =? 1); [apply ToIndexArray_sound|].
  destruct (zlen xs =? 0); [split; [discriminate|intros v H; injection H as <-; reflexivity]|].
  destruct (maxdim dims =? zlen xs); cbn [negb propagate]; [apply ToIndexArray_sound|split; discriminate].
Qed.
Lemma ToIndex_sound : sound (ToIndex None) (isNumType NInt).
Proof. intros V. destruct V as [[] [z|]| | | | | | | | | |]; cbn; split; try discriminate; intros v H; inversion H; reflexivity. Qed.
Lemma ToScalarIndex_sound : sound (ToScalar (Some (ToIndex None))) (isNumType NInt).
Proof.
  intros V. unfold ToScalar, scalarTo. destruct V; cbn [propagate negb]; try apply ToIndex_sound.
  destruct xs as [|x [|y xs]]; try (split; [discriminate|intros v H; discriminate]). apply ToIndex_sound.
Qed.
Lemma strvec_sound : sound strvec (isKind AStr).
Proof. intros V. unfold strvec. destruct V; try (split; [discriminate|intros v H; discriminate]). destruct (forallb isString xs); split; try discriminate; intros v H; inversion H; reflexivity. Qed.
Lemma ToStringArray_sound : sound (ToStringArray None) (isKind AStr).
Proof.
  intros V. unfold ToStringArray. destruct V as [| |k d xs| | | | | | | |]; try (split; [discriminate|intros v H; inversion H; reflexivity]).
  destruct k; cbn [propagate]; try (destruct (forallb isString xs)); split; try discriminate; intros v H; inversion H; reflexivity.
Qed.
Lemma Or_sound : forall a b p, sound a p -> sound b p -> sound (Or a b) p.
Proof.
  intros a b p A B V. unfold Or. destruct (A V) as [A1 A2]. destruct (B V) as [B1 B2].
  destruct (a V) as [[v []]| |] eqn:EA; cbn; try (split; [congruence|intros u H; inversion H; subst; auto; fail]).
  destruct (b V) as [[w []]| |] eqn:EB; cbn; (split; [congruence|intros u H; inversion H; subst; auto]).
Qed.
Lemma sound_weaken : forall d (p q : value -> bool), sound d p -> (forall v, p v = true -> q v = true) -> sound d q.
Proof. intros d p q H W V. destruct (H V) as [H1 H2]. split; [exact H1|]. intros v E. apply W, H2, E. Qed.
Lemma any_sound : forall (c : option sdom), (forall d, c = Some d -> exists p, sound d p) -> forall V,
  match c with None => Ok (V, true) | Some d => d V end <> Panic.
Proof. intros [d|] H V; [|discriminate]. destruct (H d eq_refl) as [p S]. apply S. Qed.

Lemma Monadic_answer : forall d p, sound d p -> forall L R, Monadic (Some d) L R <> Panic /\
  forall l r, Monadic (Some d) L R = Ok (l, r, true) -> L = None /\ l = None /\ p r = true.
Proof.
  intros d p S L R. unfold Monadic. destruct L; [split; discriminate|]. destruct (S R) as [S1 S2].
  destruct (d R) as [[v []]| |] eqn:E; cbn; (split; [congruence|]); intros l r H; inversion H; subst. auto.
Qed.
Lemma Split_answer : forall dl dr pl pr, sound dl pl -> sound dr pr -> forall L R, Dyadic (Some (Split (Some dl) (Some dr))) L R <> Panic /\
  forall l r, Dyadic (Some (Split (Some dl) (Some dr))) L R = Ok (l, r, true) -> exists l0 l1, L = Some l0 /\ l = Some l1 /\ pl l1 = true /\ pr r = true.
Proof.
  intros dl dr pl pr A B L R. unfold Dyadic, Split. destruct L as [l0|]; [|split; discriminate]. destruct (A l0) as [A1 A2]. destruct (B R) as [B1 B2].
  destruct (dl l0) as [[v []]| |] eqn:E; cbn; try (split; [congruence|intros l r H; inversion H; fail]).
  destruct (dr R) as [[w []]| |] eqn:F; cbn; (split; [congruence|]); intros l r H; inversion H; subst. exists l0, v. repeat split; auto.
Qed.
Lemma SplitL_answer : forall dl pl, sound dl pl -> forall L R, Dyadic (Some (Split (Some dl) None)) L R <> Panic /\
  forall l r, Dyadic (Some (Split (Some dl) None)) L R = Ok (l, r, true) -> exists l0 l1, L = Some l0 /\ dl l0 = Ok (l1, true) /\ l = Some l1 /\ pl l1 = true /\ r = R.
Proof.
  intros dl pl A L R. unfold Dyadic, Split. destruct L as [l0|]; [|split; discriminate]. destruct (A l0) as [A1 A2].
  destruct (dl l0) as [[v []]| |] eqn:E; cbn; (split; [congruence|]); intros l r H; inversion H; subst. exists l0, v. repeat split; auto.
Qed.
Lemma SplitR_answer : forall dr pr, sound dr pr -> forall L R, Dyadic (Some (Split None (Some dr))) L R <> Panic /\
  forall l r, Dyadic (Some (Split None (Some dr))) L R = Ok (l, r, true) -> exists l0, L = Some l0 /\ l = L /\ pr r = true.
Proof.
  intros dr pr B L R. unfold Dyadic, Split. destruct L as [l0|]; [|split; discriminate]. destruct (B R) as [B1 B2]. cbn.
  destruct (dr R) as [[w []]| |] eqn:F; cbn; (split; [congruence|]); intros l r H; inversion H; subst. exists l0. repeat split; auto.
Qed.
Lemma nil_answer : forall L R, (Monadic None L R <> Panic /\ forall l r, Monadic None L R = Ok (l, r, true) -> L = None /\ l = None /\ r = R) /\
  (Dyadic None L R <> Panic /\ forall l r, Dyadic None L R = Ok (l, r, true) -> exists l0, L = Some l0 /\ l = L /\ r = R).
Proof.
  intros L R. unfold Monadic, Dyadic. destruct L; split; split; try discriminate; intros l r H; inversion H; subst; eauto.
Qed.

(* choosing *)
Definition enterOf (hs : list handler) (L : option value) (R : value) : outcome string :=
  let* p := firstOf hs L R in let '(h, l, x) := p in let* _ := hentry h l x in Ok (hname h).
Lemma enterOf_cons : forall h hs L R, enterOf (h :: hs) L R =
  (let* r := hdom h L R in match r with (l, x, true) => let* _ := hentry h l x in Ok (hname h) | (_, _, false) => enterOf hs L R end).
Proof. intros. unfold enterOf. cbn [firstOf]. destruct (hdom h L R) as [[[l x] []]| |]; reflexivity. Qed.
Lemma safe_enter : forall hs L R, Forall safe hs -> enterOf hs L R <> Panic.
Proof.
  induction hs as [|h hs IH]; intros L R F; [discriminate|]. inversion F as [|a b S F']; subst. rewrite enterOf_cons. destruct (S L R) as [S1 S2].
  destruct (hdom h L R) as [[[l x] []]| |] eqn:E; cbn; try congruence; [|apply IH, F'].
  specialize (S2 l x eq_refl). destruct (hentry h l x); cbn; congruence.
Qed.
Lemma enter_is : forall c io sym L R, enter c io sym L R = enterOf (handlesOf (registered c io) sym) L R.
Proof. intros. unfold enter, dispatch, enterOf. reflexivity. Qed.

Lemma must_np : forall b, b = true -> must b <> Panic.
Proof. intros b ->. discriminate. Qed.

(* ---- all symbols ---- *)
Definition symbols : list string :=
  booleanSymbols ++ compareSymbols ++ elementarySymbols ++ (["~"; ","; "∊"; "⍪"; "⊥"; "⊤"; "#"; "⌹"; "⊂"; "⊃"; "⍷"; "⍕"; "⍎"; "⍋"; "⍒"; "⌷"; "⍳"; "⍸"; "≡"; "≢"; "?"; "⌽"; "⊖"; "⍴"; "⊣"; "⊢"; "↑"; "↓"; "⍉"; "⌶"; "∪"]%string).
Lemma fold_handles : forall hs sym acc, fold_left (fun acc h => if String.eqb (hsym h) sym then h :: acc else acc) hs acc = rev (filter (fun h => String.eqb (hsym h) sym) hs) ++ acc.
Proof.
  induction hs as [|h hs IH]; intros sym acc; [reflexivity|]. cbn. rewrite IH. destruct (String.eqb (hsym h) sym); cbn; [rewrite <- app_assoc; reflexivity|reflexivity].
Qed.
Lemma handles_filter : forall hs sym, handlesOf hs sym = rev (filter (fun h => String.eqb (hsym h) sym) hs).
Proof. intros. unfold handlesOf. rewrite fold_handles. apply app_nil_r. Qed.
Lemma unknown_symbol : forall c io sym, ~ In sym symbols -> handlesOf (registered c io) sym = [].
Proof.
  intros c io sym N. rewrite handles_filter. assert (F : forall h, In h (registered c io) -> In (hsym h) symbols).
  { intros h I. assert (M : In (hsym h) (map hsym (registered c io))) by (apply in_map; exact I).
    assert (A : forallb (fun s => existsb (String.eqb s) symbols) (map hsym (registered c io)) = true) by (destruct c, io; vm_compute; reflexivity).
    rewrite forallb_forall in A. specialize (A _ M). apply existsb_exists in A. destruct A as (s & Is & Es). apply String.eqb_eq in Es. rewrite Es. exact Is. }
  assert (filter (fun h => String.eqb (hsym h) sym) (registered c io) = []) as ->; [|reflexivity].
  revert F. generalize (registered c io) as hs. induction hs as [|h hs IH]; intros F; [reflexivity|]. cbn.
  destruct (String.eqb (hsym h) sym) eqn:E; [|apply IH; intros h' I; apply F; right; exact I].
  apply String.eqb_eq in E. exfalso. apply N. rewrite <- E. apply F. left. reflexivity.
Qed.
