(* Eff.v -- effectful computations.
   A user function called by an operator may read and change the interpreter
   (variables, channels, output) and may fail.  [eff S A] threads an arbitrary
   state S through the calls, so that a statement about an operator fixes the
   order and the number of the calls, not only their results. *)
From Verif Require Import Base M_Array S_Array P_Array.

Definition eff (S A : Type) : Type := S -> outcome A * S.

Definition eret {S A} (a : A) : eff S A := fun s => (Ok a, s).
Definition efail {S A} : eff S A := fun s => (Err, s).
Definition epanic {S A} : eff S A := fun s => (Panic, s).
Definition elift {S A} (o : outcome A) : eff S A := fun s => (o, s).
Definition ebind {S A B} (m : eff S A) (k : A -> eff S B) : eff S B :=
  fun s => match m s with
           | (Ok a, s') => k a s'
           | (Err, s') => (Err, s')
           | (Panic, s') => (Panic, s')
           end.
Notation "'let!' x ':=' e 'in' k" := (ebind e (fun x => k))
  (at level 200, x pattern, e at level 100, k at level 200, right associativity).

Definition emap {S A B} (g : A -> B) (m : eff S A) : eff S B := ebind m (fun a => eret (g a)).

Lemma ebind_assoc {S A B C} (m : eff S A) (k : A -> eff S B) (h : B -> eff S C) s :
  ebind (ebind m k) h s = ebind m (fun a => ebind (k a) h) s.
Proof. unfold ebind. destruct (m s) as [[a| |] s']; reflexivity. Qed.
Lemma ebind_ret_r {S A} (m : eff S A) s : ebind m eret s = m s.
Proof. unfold ebind, eret. destruct (m s) as [[a| |] s']; reflexivity. Qed.
Lemma ebind_ext {S A B} (m m' : eff S A) (k k' : A -> eff S B) s :
  m s = m' s -> (forall a t, k a t = k' a t) -> ebind m k s = ebind m' k' s.
Proof. intros H1 H2. unfold ebind. rewrite H1. destruct (m' s) as [[a| |] s']; auto. Qed.

(* left to right, the first failure ends it *)
Fixpoint mapE {S A B} (f : A -> eff S B) (l : list A) : eff S (list B) :=
  match l with
  | [] => eret []
  | x :: r => let! y := f x in let! ys := mapE f r in eret (y :: ys)
  end.

Lemma mapE_ext {S A B} (f g : A -> eff S B) l :
  (forall x s, In x l -> f x s = g x s) -> forall s, mapE f l s = mapE g l s.
Proof.
  induction l as [|x r IH]; intros H s; [reflexivity|]. cbn [mapE].
  unfold ebind at 1 3. rewrite H by (left; reflexivity).
  destruct (g x s) as [[y| |] s']; try reflexivity.
  unfold ebind. rewrite IH by (intros z t Hz; apply H; right; exact Hz). reflexivity.
Qed.

Lemma mapE_map {S A B C} (f : B -> eff S C) (g : A -> B) l s :
  mapE f (map g l) s = mapE (fun x => f (g x)) l s.
Proof.
  revert s. induction l as [|x r IH]; intros s; [reflexivity|]. cbn [map mapE].
  unfold ebind. destruct (f (g x) s) as [[y| |] s']; try reflexivity. rewrite IH. reflexivity.
Qed.

Lemma mapE_app {S A B} (f : A -> eff S B) l1 l2 s :
  mapE f (l1 ++ l2) s = (let! a := mapE f l1 in let! b := mapE f l2 in eret (a ++ b)) s.
Proof.
  revert s. induction l1 as [|x r IH]; intros s; cbn [app mapE].
  - unfold ebind, eret. destruct (mapE f l2 s) as [[b| |] s']; reflexivity.
  - unfold ebind at 1 4. unfold ebind at 2.
    destruct (f x s) as [[y| |] s1]; try reflexivity. unfold ebind at 1. rewrite IH.
    unfold ebind, eret. destruct (mapE f r s1) as [[a| |] s2]; try reflexivity.
    destruct (mapE f l2 s2) as [[b| |] s3]; reflexivity.
Qed.

Lemma mapE_pure {S A B} (f : A -> eff S B) (o : A -> outcome B) l s :
  (forall x t, In x l -> f x t = (o x, t)) -> mapE f l s = (mapM o l, s).
Proof.
  revert s. induction l as [|x r IH]; intros s H; [reflexivity|]. cbn [mapE mapM].
  unfold ebind, eret. rewrite H by (left; reflexivity). destruct (o x) as [y| |]; cbn [obind]; try reflexivity.
  rewrite IH by (intros z t Hz; apply H; right; exact Hz). destruct (mapM o r); reflexivity.
Qed.
Lemma mapE_ok_pure {S A B} (f : A -> eff S B) (g : A -> B) l s :
  (forall x t, In x l -> f x t = (Ok (g x), t)) -> mapE f l s = (Ok (map g l), s).
Proof.
  intros H. rewrite (mapE_pure f (fun x => Ok (g x))) by exact H.
  rewrite (mapM_ok_map _ g) by reflexivity. reflexivity.
Qed.

Lemma mapE_length {S A B} (f : A -> eff S B) l s r s' : mapE f l s = (Ok r, s') -> length r = length l.
Proof.
  revert s r s'. induction l as [|x l IH]; intros s r s' H; cbn [mapE] in H.
  - inversion H. reflexivity.
  - unfold ebind, eret in H. destruct (f x s) as [[y| |] s1]; try discriminate.
    destruct (mapE f l s1) as [[ys| |] s2] eqn:E; try discriminate. inversion H; subst. cbn [length].
    f_equal. eapply IH. exact E.
Qed.
Lemma mapE_zlen {S A B} (f : A -> eff S B) l s r s' : mapE f l s = (Ok r, s') -> zlen r = zlen l.
Proof. intros H. unfold zlen. rewrite (mapE_length _ _ _ _ _ H). reflexivity. Qed.

(* a property of every result of f carries over to the list of results *)
Lemma mapE_Forall2 {S A B} (P : A -> B -> Prop) (f : A -> eff S B) l :
  (forall x s y s', In x l -> f x s = (Ok y, s') -> P x y) ->
  forall s r s', mapE f l s = (Ok r, s') -> Forall2 P l r.
Proof.
  induction l as [|x l IH]; intros HP s r s' H; cbn [mapE] in H.
  - inversion H. constructor.
  - unfold ebind, eret in H. destruct (f x s) as [[y| |] s1] eqn:E1; try discriminate.
    destruct (mapE f l s1) as [[ys| |] s2] eqn:E; try discriminate. inversion H; subst. constructor.
    + eapply HP; [left; reflexivity|exact E1].
    + eapply IH; [|exact E]. intros z t y' t' Hz. apply HP. right. exact Hz.
Qed.

(* ---- the odometer loop with effects ---- *)
Fixpoint odo_loopE {S A} (n : nat) (idx shape : list Z) (body : list Z -> eff S A)
  : eff S (list A) :=
  match n with
  | O => eret []
  | Datatypes.S m => let! x := body idx in
           let! r := odo_loopE m (IncArrayIndex idx shape) shape body in
           eret (x :: r)
  end.
Definition fillE {S A} (shape : list Z) (body : list Z -> eff S A) : eff S (arr A) :=
  if Prod shape <? 0 then epanic else
  let! l := odo_loopE (Z.to_nat (Prod shape)) (zerosZ (length shape)) shape body in
  eret (mkArr shape l).

Lemma odo_loopE_from {S A} ds (body : list Z -> eff S A) n idx :
  inb ds idx -> Z.of_nat n <= size ds - pos ds idx -> forall s,
  odo_loopE n idx ds body s =
  mapE body (firstn n (skipn (Z.to_nat (pos ds idx)) (all_idx ds))) s.
Proof.
  revert idx. induction n as [|n IH]; intros idx Hin Hn s; [reflexivity|].
  pose proof (pos_range ds idx Hin) as Hr.
  pose proof (znth_all_idx ds idx Hin) as Hz. unfold znth in Hz.
  replace (pos ds idx <? 0) with false in Hz by lia.
  rewrite (skipn_cons_nth _ _ _ Hz). cbn [odo_loopE firstn mapE].
  unfold ebind. destruct (body idx s) as [[x| |] s1]; try reflexivity.
  destruct n as [|n0].
  - reflexivity.
  - pose proof (inc_aux_spec ds idx Hin) as Hi. unfold IncArrayIndex.
    destruct (inc_aux idx ds) as [idx' c]. cbn [fst]. destruct Hi as [Hin' Hc].
    destruct c; [lia|].
    rewrite IH; [|exact Hin'|lia].
    replace (Z.to_nat (pos ds idx')) with (Datatypes.S (Z.to_nat (pos ds idx))) by lia.
    reflexivity.
Qed.

Lemma odo_loopE_all {S A} ds (body : list Z -> eff S A) s :
  Forall (fun d => 0 <= d) ds ->
  odo_loopE (Z.to_nat (size ds)) (zerosZ (length ds)) ds body s = mapE body (all_idx ds) s.
Proof.
  intros Hnn. pose proof (size_nonneg _ Hnn) as Hs.
  pose proof (zlen_all_idx ds Hnn) as Hlen. unfold zlen in Hlen.
  destruct (Z.eq_dec (size ds) 0) as [E|E].
  - rewrite E. destruct (all_idx ds) as [|x r]; [reflexivity|]. cbn [length] in Hlen. lia.
  - assert (Hpos : Forall (fun d => 0 < d) ds) by (apply size_pos_all; [assumption|lia]).
    rewrite odo_loopE_from; [|apply zeros_inb; assumption|rewrite pos_zeros; lia].
    rewrite pos_zeros. cbn [Z.to_nat skipn]. rewrite firstn_all2 by lia. reflexivity.
Qed.

Lemma fillE_eq {S A} ds (body : list Z -> eff S A) s :
  ds <> [] -> Forall (fun d => 0 <= d) ds ->
  fillE ds body s = emap (mkArr ds) (mapE body (all_idx ds)) s.
Proof.
  intros Hne Hnn. unfold fillE. rewrite Prod_size by assumption.
  pose proof (size_nonneg _ Hnn). replace (size ds <? 0) with false by lia.
  unfold emap, ebind. rewrite odo_loopE_all by assumption.
  destruct (mapE body (all_idx ds) s) as [[x| |] s1]; reflexivity.
Qed.

(* the array made of the results of an effectful body *)
Lemma mapE_build {S A} ds (body : list Z -> eff S A) s l s' :
  ds <> [] -> Forall (fun d => 0 <= d) ds ->
  mapE body (all_idx ds) s = (Ok l, s') -> wf (mkArr ds l).
Proof.
  intros Hne Hnn H. apply wf_fill_elems; [exact Hne|exact Hnn|].
  rewrite (mapE_zlen _ _ _ _ _ H). apply zlen_all_idx. exact Hnn.
Qed.
