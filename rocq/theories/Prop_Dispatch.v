(* How a primitive function finds the function that serves its arguments.  The
   symbols are those of the language: a dyadic call has L = Some l, a monadic one
   L = None; compact says whether the number system packs arrays, io whether the
   package io is registered as in the program iv. *)
From Coq Require Import String List ZArith Bool Lia.
From Verif Require Import Base M_Array P_Array M_Dispatch S_Dispatch P_Dispatch P_Dispatch2 P_Dispatch3 P_Dispatch4 P_Dispatch5 P_Dispatch6 P_Dispatch7.
Import ListNotations.
Open Scope Z_scope.

(* C138: + - × ÷ * ⍟ | ⌊ ⌈ ! ○ with one argument *)
Theorem C138_monadic : forall c io e R, In e elementarySymbols -> ~ (io = true /\ e = "!"%string /\ command R) ->
  (R = Chan -> served c io e None R "channel1" None R) /\
  (an_object R -> served c io e None R "table1" None R) /\
  (an_array R -> served c io e None R "array1" None R) /\
  (R <> Chan -> ~ an_object R -> ~ an_array R -> served c io e None R "arith1" None R).
Proof.
  intros c io e R I N. assert (NE : ~ elsewhere io e None R) by (intros [H|(_ & s & H & _)]; [exact (N H)|discriminate H]).
  pose proof (elem1 c e R) as E.
  assert (S : forall n, (n < 10)%nat -> match R with Chan => 3 | Dict | Table | Obj _ => 2 | Arr _ _ _ => 1 | _ => 0 end%nat = n -> served c io e None R (nth n ["arith1"; "array1"; "table1"; "channel1"; "arith2"; "array2"; "arrayAxis"; "tableAny"; "tableBoth"; "channel2"]%string ""%string) None R).
  { intros n B K. apply served_first; auto. rewrite E, K. reflexivity. }
  repeat split.
  - intros ->. apply (S 3%nat); [lia|reflexivity].
  - intros H. apply (S 2%nat); [lia|]. inversion H; reflexivity.
  - intros H. apply (S 1%nat); [lia|]. inversion H; reflexivity.
  - intros A B C. apply (S 0%nat); [lia|]. rewrite <- not_object in B. rewrite <- not_array in C. destruct R; try reflexivity; try discriminate B; try discriminate C; congruence.
Qed.

(* with two arguments.  A string before a time rounds the time, and with io a
   command before ! runs it: those are served elsewhere. *)
Definition special (io : bool) (e : string) (l R : value) : Prop :=
  (io = true /\ e = "!"%string /\ command l) \/
  (e = "⌊"%string /\ (exists s, l = Str s) /\ ((exists i, R = Num NTime i) \/ exists d xs, R = Arr ATime d xs)).
Lemma special_elsewhere : forall io e l R, ~ special io e l R -> ~ elsewhere io e (Some l) R.
Proof. intros io e l R N [H|(H & s & E & T)]; apply N; [left; exact H|right]. injection E as ->. eauto. Qed.

Theorem C138_channel : forall c io e l, In e elementarySymbols -> ~ special io e l Chan -> served c io e (Some l) Chan "channel2" (Some l) Chan.
Proof. intros c io e l I N. apply (served_first c io e (Some l) Chan 9); [exact I|apply special_elsewhere; exact N|lia|apply elem2_channel]. Qed.
Theorem C138_objects : forall c io e l R, In e elementarySymbols -> ~ special io e l R -> R <> Chan ->
  (an_object l -> an_object R -> served c io e (Some l) R "tableBoth" (Some l) R) /\
  (an_object l -> ~ an_object R -> served c io e (Some l) R "tableAny" (Some l) R) /\
  (~ an_object l -> an_object R -> served c io e (Some l) R "tableAny" (Some l) R).
Proof.
  intros c io e l R I N NC. rewrite <- !not_object, <- !isObject_iff. pose proof (special_elsewhere _ _ _ _ N) as NE.
  repeat split; intros A B; pose proof (elem2_object c e l R NC) as E; rewrite A, B in E; specialize (E eq_refl); cbn in E.
  - apply (served_first c io e (Some l) R 8); auto; lia.
  - apply (served_first c io e (Some l) R 7); auto; lia.
  - apply (served_first c io e (Some l) R 7); auto; lia.
Qed.
(* f[A] with an axis that is integers *)
Theorem C138_axis : forall c io e l A r, In e elementarySymbols -> ~ special io e l (AxisOf A r) -> ~ an_object l -> indices A ->
  exists l' A' r', served c io e (Some l) (AxisOf A r) "arrayAxis" (Some l') (AxisOf A' r') /\ as_array l l' /\ as_array r r' /\ as_integers A A'.
Proof.
  intros c io e l A r I N NO IA. apply ToIndexArray_accepts in IA. destruct IA as [A' EA].
  destruct (ToArray_gives c l) as (l' & EL & HL). destruct (ToArray_gives c r) as (r' & ER & HR).
  exists l', A', r'. repeat split; [|exact HL|exact HR|apply ToIndexArray_gives; exact EA].
  apply (served_first c io e (Some l) (AxisOf A r) 6); [exact I|apply special_elsewhere; exact N|lia|]. rewrite elem2_axis. rewrite <- not_object in NO. rewrite NO, EA.
  assert (T : forall v, ToArray c None v = Ok ((if isArray v then v else unified c [1] [v]), true)) by (intros v; unfold ToArray, arrayTo; destruct (isArray v); reflexivity).
  rewrite T in EL, ER. injection EL as <-. injection ER as <-. reflexivity.
Qed.
(* two arrays: one without elements, equal shapes, one with one element, or refused *)
Theorem C138_arrays : forall c io e kl ls xl kr rs xr, In e elementarySymbols -> let l := Arr kl ls xl in let R := Arr kr rs xr in
  ~ special io e l R ->
  (xl = [] -> served c io e (Some l) R "array2" (Some (Arr AEmpty [] [])) R) /\
  (xl <> [] -> xr = [] -> served c io e (Some l) R "array2" (Some l) (Arr AEmpty [] [])) /\
  (xl <> [] -> xr <> [] -> ls = rs -> ls <> [] -> served c io e (Some l) R "array2" (Some l) R) /\
  (xr <> [] -> ls <> rs -> forall x, xl = [x] -> served c io e (Some l) R "array2" (Some x) R) /\
  (ls <> rs -> forall y, xr = [y] -> 1 < zlen xl -> served c io e (Some l) R "array2" (Some l) y) /\
  (ls <> rs -> 1 < zlen xl -> 1 < zlen xr -> unserved c io e (Some l) R).
Proof.
  intros c io e kl ls xl kr rs xr I l R N. pose proof (special_elsewhere _ _ _ _ N) as NE. pose proof (elem2_arrays c e kl ls xl kr rs xr) as E. fold l R in E.
  assert (S : forall a b, firstOf (rev (elementaryOf c e)) (Some l) R = Ok (El c e 5, Some a, b) -> served c io e (Some l) R "array2" (Some a) b).
  { intros a b H. apply (served_first c io e (Some l) R 5); auto; lia. }
  assert (NS : ls <> rs -> sameShape ls rs = false) by (intros D; destruct (sameShape ls rs) eqn:X; [apply conform_iff in X; tauto|reflexivity]).
  repeat split.
  - intros ->. apply S. exact E.
  - intros A ->. apply S. rewrite E. destruct xl; [congruence|reflexivity].
  - intros A B C D. apply S. rewrite E. assert (X : sameShape ls rs = true) by (apply conform_iff; auto). rewrite X. destruct xl; [congruence|]. destruct xr; [congruence|reflexivity].
  - intros B D x ->. apply S. rewrite E, (NS D). destruct xr; [congruence|reflexivity].
  - intros D y -> LX. apply S. rewrite E, (NS D). destruct xl as [|x [|x' xl]]; try (unfold zlen in LX; cbn in LX; lia). reflexivity.
  - intros D LX LR. unfold unserved. rewrite (elementary_dispatch c io e _ _ I NE), E, (NS D).
    destruct xl as [|x [|x' xl]]; try (unfold zlen in LX; cbn in LX; lia). destruct xr as [|y [|y' xr]]; try (unfold zlen in LR; cbn in LR; lia). reflexivity.
Qed.
(* an array with a scalar, and two scalars *)
Theorem C138_scalars : forall c io e l R, In e elementarySymbols -> ~ special io e l R -> ~ an_object l -> ~ an_object R -> R <> Chan -> (forall A r, R <> AxisOf A r) ->
  (an_array l /\ ~ an_array R \/ ~ an_array l /\ an_array R -> served c io e (Some l) R "array2" (Some l) R) /\
  (~ an_array l -> ~ an_array R -> served c io e (Some l) R "arith2" (Some l) R).
Proof.
  intros c io e l R I N OL OR NC NX. pose proof (special_elsewhere _ _ _ _ N) as NE. rewrite <- not_object in OL, OR. rewrite <- !not_array, <- !isArray_iff.
  assert (P : plain R = true) by (destruct R; try reflexivity; try discriminate OR; try congruence; exfalso; eapply NX; reflexivity).
  split.
  - intros [[A B]|[A B]]; (apply (served_first c io e (Some l) R 5); [auto..|lia|]); rewrite elem2_other by (auto; rewrite A, B; reflexivity); rewrite A, B; reflexivity.
  - intros A B. apply (served_first c io e (Some l) R 4); [auto..|lia|]. rewrite elem2_other by (auto; rewrite A, B; reflexivity). rewrite A, B. reflexivity.
Qed.
(* The two exceptions *)
Theorem C138_round : forall c io s R, (exists i, R = Num NTime i) \/ (exists d xs, R = Arr ATime d xs) -> served c io "⌊" (Some (Str s)) R "roundTime" (Some (Str s)) R.
Proof.
  intros c io s R H. eexists. split; [unfold dispatch; destruct io; handles; cbn [firstOf hdom]; destruct H as [[i ->]|(d & xs & ->)]; reflexivity|reflexivity].
Qed.
Theorem C138_command : forall c l R, command l -> exists v, served c true "!" (Some l) R "exec2" (Some v) R /\ served c true "!" None l "exec1" None v.
Proof.
  intros c l R C. apply ToStringArray_command in C. destruct C as [v E]. exists v. split; (eexists; split; [unfold dispatch; handles; cbn [firstOf hdom]; cbn [Dyadic Split Monadic]; rewrite ?E; reflexivity|reflexivity]).
Qed.
(* with the program iv, ⍬!5 and !⍬ are commands: no elements to take the binomial of *)
Theorem C138_binomial_refuted : ~ (forall c k d l R, l = Arr k d [] -> an_array R \/ a_number R -> served c true "!" (Some l) R "array2" (Some (Arr AEmpty [] [])) R \/ served c true "!" (Some l) R "array2" (Some l) R).
Proof.
  intros H. specialize (H true AEmpty [] _ (Num NInt (Some 5)) eq_refl (or_intror (a_number_intro _ _))).
  destruct (C138_command true (Arr AEmpty [] []) (Num NInt (Some 5))) as (v & (h & E & NM) & _).
  { exists ""%string. right. exists AEmpty, [], []. split; [reflexivity|right; constructor]. }
  destruct H as [(h' & E' & NM')|(h' & E' & NM')]; rewrite E in E'; injection E' as <- _; rewrite NM in NM'; discriminate NM'.
Qed.
Example C138_example :
  served true false "+" (Some (Arr AInt [2] [Num NInt (Some 1); Num NInt (Some 2)])) (Num NInt (Some 3)) "array2" (Some (Arr AInt [2] [Num NInt (Some 1); Num NInt (Some 2)])) (Num NInt (Some 3)) /\
  unserved true false "+" (Some (Arr AInt [2] [Num NInt (Some 1); Num NInt (Some 2)])) (Arr AInt [3] [Num NInt (Some 1); Num NInt (Some 2); Num NInt (Some 3)]) /\
  served true false "-" (Some Dict) Chan "channel2" (Some Dict) Chan.
Proof. repeat split; eexists; (split; [vm_compute; reflexivity|reflexivity]) || (vm_compute; reflexivity). Qed.

(* C139: which calls fail with a failed type assertion, before the function does
   anything: exactly the listed ones, for every symbol and all arguments *)
Theorem C139_functions : forall c io sym L R, enter c io sym L R = Panic <-> ill io sym L R.
Proof. exact enter_panic. Qed.
Theorem C139_operators : forall sym LO RO L R, enterOp sym LO RO L R = Panic <-> ill_op sym LO RO L R.
Proof. exact enterOp_panic. Qed.
(* so "every call returns a value or an error" is false *)
Theorem C139_refuted : ~ (forall c io sym L R, enter c io sym L R <> Panic).
Proof. intros H. apply (H true false "⌽"%string (Some (Arr AEmpty [] [])) (Arr AInt [1] [Num NInt (Some 1)])). apply enter_panic. apply ill_rotate; [left; reflexivity|constructor; discriminate|constructor]. Qed.
Theorem C139_operators_refuted : ~ (forall sym LO RO L R, enterOp sym LO RO L R <> Panic).
Proof. intros H. apply (H "/"%string (Arr AEmpty [] []) None None (Num NInt (Some 1))). apply enterOp_panic. apply ill_replicate; [left; reflexivity|constructor; discriminate]. Qed.
(* and the arguments for which no call of a primitive function fails: numbers, and
   arrays that have elements and a shape *)
Theorem C139_ordinary : forall c io sym L R,
  let fine v := (exists t i, v = Num t i) \/ (exists k d x xs, v = Arr k d (x :: xs) /\ d <> []) in
  fine R -> (forall l, L = Some l -> fine l) -> (sym = "⍉"%string -> an_array R) -> enter c io sym L R <> Panic.
Proof.
  intros c io sym L R fine FR FL T H. apply enter_panic in H.
  assert (FN : forall v, fine v -> ~ blank v) by (intros v [(t & i & ->)|(k & d & x & xs & -> & _)] B; inversion B).
  assert (FA : forall v, fine v -> ~ blank_axis v) by (intros v [(t & i & ->)|(k & d & x & xs & -> & _)] B; inversion B).
  assert (FX : forall v, fine v -> a_number v \/ an_array v) by (intros v [(t & i & ->)|(k & d & x & xs & -> & _)]; [left|right]; constructor).
  destruct H; try (apply (FA _ FR); assumption); try (apply (FN _ (FL _ eq_refl)); assumption).
  - destruct FR as [(t & i & E)|(k & d & x & xs & E & _)]; discriminate E.
  - destruct (FX _ FR); contradiction.
  - destruct (FX _ FR); contradiction.
  - destruct (FX _ (FL _ eq_refl)); contradiction.
  - destruct (FX _ (FL _ eq_refl)); contradiction.
  - specialize (T eq_refl). inversion T; subst. match goal with H : a_number _ |- _ => inversion H end.
  - destruct FR as [(t & i & E)|(k' & d' & x & xs & E & _)]; discriminate E.
  - destruct FR as [(t & i & E)|(k' & d' & x & xs' & E & ND)]; [discriminate E|]. injection E as _ E2 _. congruence.
Qed.
Example C139_example : ill false "⍸" None (Arr AEmpty [] []) /\ ill true "|" None (Str "a") /\
  enter true false "⌽" (Some (Num NInt (Some 1))) (Arr AInt [1] [Num NInt (Some 7)]) = Ok "rotLast"%string.
Proof.
  split; [constructor; discriminate|]. split; [constructor; try discriminate; intros H; inversion H|]. vm_compute. reflexivity.
Qed.

(* C140: registering one more function for a symbol: it is asked first, and takes
   exactly the arguments its domain accepts; every other call is served as before *)
Theorem C140_registers : forall hs h L R,
  (forall l x, hdom h L R = Ok (l, x, true) -> firstOf (handlesOf (registers hs h) (hsym h)) L R = Ok (h, l, x)) /\
  (forall l x, hdom h L R = Ok (l, x, false) -> firstOf (handlesOf (registers hs h) (hsym h)) L R = firstOf (handlesOf hs (hsym h)) L R) /\
  (forall sym, sym <> hsym h -> firstOf (handlesOf (registers hs h) sym) L R = firstOf (handlesOf hs sym) L R).
Proof.
  intros hs h L R. repeat split.
  - intros l x E. rewrite registers_same, E. reflexivity.
  - intros l x E. rewrite registers_same, E. reflexivity.
  - intros sym N. apply registers_other. exact N.
Qed.
(* every function that serves a call has been registered for its symbol, accepts the
   arguments, and all functions registered for the symbol after it refuse them *)
Theorem C140_last_wins : forall hs sym L R h l x, firstOf (handlesOf hs sym) L R = Ok (h, l, x) ->
  exists pre post, hs = pre ++ h :: post /\ hsym h = sym /\ hdom h L R = Ok (l, x, true) /\
    Forall (fun g => hsym g = sym -> exists l' x', hdom g L R = Ok (l', x', false)) post.
Proof.
  intros hs. induction hs as [|g hs IH] using rev_ind; intros sym L R h l x E; [discriminate E|].
  change (hs ++ [g]) with (registers hs g) in E. destruct (string_dec sym (hsym g)) as [->|N].
  - rewrite registers_same in E. destruct (hdom g L R) as [[[l' x'] []]| |] eqn:EG; try discriminate E.
    + cbn in E. injection E as -> -> ->. exists hs, []. repeat split; auto.
    + cbn in E. destruct (IH _ _ _ _ _ _ E) as (pre & post & -> & B & C & D). exists pre, (post ++ [g]). rewrite <- app_assoc. repeat split; auto.
      apply Forall_app. split; [exact D|]. constructor; [|constructor]. intros _. eauto.
  - rewrite registers_other in E by exact N. destruct (IH _ _ _ _ _ _ E) as (pre & post & -> & B & C & D). exists pre, (post ++ [g]). rewrite <- app_assoc. repeat split; auto.
    apply Forall_app. split; [exact D|]. constructor; [|constructor]. intros H. congruence.
Qed.
Example C140_example : exists h, firstOf (handlesOf (registers (primitives true) (mkH "+" "mine" (Monadic (Some (IsString None))) free)) "+") None (Str "a") = Ok (h, None, Str "a") /\ hname h = "mine"%string.
Proof. eexists. split; [vm_compute; reflexivity|reflexivity]. Qed.

(* C141: what a function gets is what was passed, in the form it asked for *)
Theorem C141_array : forall c V, exists v, ToArray c None V = Ok (v, true) /\ as_array V v.
Proof. exact ToArray_gives. Qed.
Theorem C141_integers : forall V, ((exists v, ToIndexArray None V = Ok (v, true)) <-> indices V) /\ forall v, ToIndexArray None V = Ok (v, true) -> as_integers V v.
Proof. intros V. split; [apply ToIndexArray_accepts|apply ToIndexArray_gives]. Qed.
Theorem C141_vector : forall c V v, ToVector c None V = Ok (v, true) -> as_vector V v.
Proof. exact ToVector_gives. Qed.
Theorem C141_vector_accepts : forall c k d xs, proper (Arr k d xs) -> xs <> [] ->
  (exists v, ToVector c None (Arr k d xs) = Ok (v, true)) <-> one_long_axis d.
Proof. exact ToVector_accepts. Qed.
(* An index that is a boolean or an integer *)
Theorem C141_index : forall V, proper V -> (forall v, ToIndex None V = Ok (v, true) <-> exists z, index_of V z /\ v = Num NInt (Some z)).
Proof.
  intros V P v.
  assert (G : forall t z, ToIndex None (Num t (Some z)) = Ok (Num NInt (Some z), true) -> (ToIndex None (Num t (Some z)) = Ok (v, true) <-> exists y, index_of (Num t (Some z)) y /\ v = Num NInt (Some y))).
  { intros t z ->. split; [intros H; injection H as <-; exists z; split; [constructor|reflexivity]|intros (y & H & ->); inversion H; reflexivity]. }
  assert (G0 : forall t, ToIndex None (Num t None) = Ok (Num t None, false) -> (ToIndex None (Num t None) = Ok (v, true) <-> exists y, index_of (Num t None) y /\ v = Num NInt (Some y))).
  { intros t ->. split; [discriminate|intros (y & H & _); inversion H]. }
  destruct V as [t i| | | | | | | | | |]; try (split; [discriminate|intros (z & H & _); inversion H]).
  destruct t; cbn [proper proper_number] in P; [destruct P as [->| ->]; apply G; reflexivity|destruct P as [z ->]; apply G; reflexivity|destruct i; (apply G || apply G0); reflexivity..].
Qed.
Example C141_example : ToIndexArray None (Arr AFloat [1; 2] [Num NFloat (Some 3); Num NFloat (Some 4)]) = Ok (Arr AInt [1; 2] [Num NInt (Some 3); Num NInt (Some 4)], true) /\
  ToVector true None (Arr AInt [1; 2] [Num NInt (Some 3); Num NInt (Some 4)]) = Ok (Arr AInt [2] [Num NInt (Some 3); Num NInt (Some 4)], true) /\
  one_long_axis [1; 2] /\ proper (Arr AInt [1; 2] [Num NInt (Some 3); Num NInt (Some 4)]).
Proof.
  split; [reflexivity|]. split; [reflexivity|]. split; [exists [1], 2, []; repeat split; repeat constructor|].
  repeat split; try discriminate; [repeat constructor; lia|repeat constructor; cbn; eauto|repeat constructor; cbn; eauto].
Qed.

Print Assumptions C138_arrays.
Print Assumptions C139_functions.
Print Assumptions C139_operators.
Print Assumptions C140_last_wins.
Print Assumptions C141_vector_accepts.
