(* Base.v -- outcomes of Go functions, Z-indexed list helpers.
   Nothing here models a particular function of the repository. *)
From Coq Require Export List ZArith Lia Bool Arith.
From Coq Require FinFun.
From Coq Require Export ZifyBool ZifyNat.
Export ListNotations.
Open Scope Z_scope.

(* A Go function returns normally, returns an error, or panics. *)
Inductive outcome (A : Type) : Type :=
| Ok (a : A)
| Err
| Panic.
Arguments Ok {A} a.
Arguments Err {A}.
Arguments Panic {A}.

Definition obind {A B} (o : outcome A) (k : A -> outcome B) : outcome B :=
  match o with Ok a => k a | Err => Err | Panic => Panic end.

Notation "'let*' x ':=' e 'in' k" := (obind e (fun x => k))
  (at level 200, x pattern, e at level 100, k at level 200, right associativity).

Definition omap {A B} (f : A -> B) (o : outcome A) : outcome B :=
  match o with Ok a => Ok (f a) | Err => Err | Panic => Panic end.

Lemma obind_ok {A B} (o : outcome A) (k : A -> outcome B) b :
  obind o k = Ok b <-> exists a, o = Ok a /\ k a = Ok b.
Proof.
  destruct o as [a| |]; simpl; split.
  - intros H. exists a. auto.
  - intros (a' & H & H'). inversion H. subst. exact H'.
  - discriminate.
  - intros (a' & H & _). discriminate.
  - discriminate.
  - intros (a' & H & _). discriminate.
Qed.

(* Monadic map, left to right: the first failure ends it. *)
Fixpoint mapM {A B} (f : A -> outcome B) (l : list A) : outcome (list B) :=
  match l with
  | [] => Ok []
  | x :: r => let* y := f x in let* ys := mapM f r in Ok (y :: ys)
  end.

Lemma mapM_ok_map {A B} (f : A -> outcome B) (g : A -> B) l :
  (forall x, In x l -> f x = Ok (g x)) -> mapM f l = Ok (map g l).
Proof.
  induction l as [|x r IH]; intros H; simpl; [reflexivity|].
  rewrite H by (left; reflexivity). simpl.
  rewrite IH by (intros y Hy; apply H; right; exact Hy). reflexivity.
Qed.

Lemma mapM_ext {A B} (f g : A -> outcome B) l :
  (forall x, In x l -> f x = g x) -> mapM f l = mapM g l.
Proof.
  induction l as [|x r IH]; intros H; simpl; [reflexivity|].
  rewrite H by (left; reflexivity).
  rewrite IH by (intros y Hy; apply H; right; exact Hy). reflexivity.
Qed.

Lemma mapM_Forall2 {A B} (f : A -> outcome B) l r :
  mapM f l = Ok r <-> Forall2 (fun x y => f x = Ok y) l r.
Proof.
  revert r. induction l as [|x l IH]; intros r; simpl.
  - split; intros H; inversion H; constructor.
  - split.
    + intros H. apply obind_ok in H. destruct H as (y & Hy & H).
      apply obind_ok in H. destruct H as (ys & Hys & H). inversion H; subst.
      constructor; [exact Hy | apply IH; exact Hys].
    + intros H. inversion H as [|x' y l' ys Hy Hys]; subst.
      rewrite Hy. simpl. apply IH in Hys. rewrite Hys. reflexivity.
Qed.

Lemma Forall2_length {A B} (P : A -> B -> Prop) l1 l2 :
  Forall2 P l1 l2 -> length l1 = length l2.
Proof. intros H. induction H as [|x y l r _ _ IH]; simpl; [reflexivity|]. rewrite IH. reflexivity. Qed.

Lemma mapM_length {A B} (f : A -> outcome B) l r :
  mapM f l = Ok r -> length r = length l.
Proof. intros H. apply mapM_Forall2 in H. symmetry. eapply Forall2_length; eassumption. Qed.

Lemma mapM_map {A B C} (f : B -> outcome C) (g : A -> B) l :
  mapM f (map g l) = mapM (fun x => f (g x)) l.
Proof. induction l as [|x r IH]; simpl; [reflexivity|]. rewrite IH. reflexivity. Qed.

Lemma mapM_app {A B} (f : A -> outcome B) l1 l2 :
  mapM f (l1 ++ l2) = (let* a := mapM f l1 in let* b := mapM f l2 in Ok (a ++ b)).
Proof.
  induction l1 as [|x r IH]; simpl.
  - destruct (mapM f l2); reflexivity.
  - destruct (f x); simpl; try reflexivity. rewrite IH.
    destruct (mapM f r); simpl; try reflexivity.
    destruct (mapM f l2); reflexivity.
Qed.

Lemma mapM_nth {A B} (f : A -> outcome B) l r n x :
  mapM f l = Ok r -> nth_error l n = Some x ->
  exists y, f x = Ok y /\ nth_error r n = Some y.
Proof.
  intros H. apply mapM_Forall2 in H. revert n.
  induction H as [|a b l' r' Hab Hl IH]; intros n Hn.
  - destruct n; discriminate.
  - destruct n as [|n]; simpl in *.
    + inversion Hn; subst. exists b. auto.
    + apply IH. exact Hn.
Qed.

(* ---- lists indexed by Z, as Go slices are ---- *)

Definition zlen {A} (l : list A) : Z := Z.of_nat (length l).

Definition znth {A} (l : list A) (i : Z) : option A :=
  if i <? 0 then None else nth_error l (Z.to_nat i).

(* s[i]: panics outside 0..len-1 *)
Definition zat {A} (l : list A) (i : Z) : outcome A :=
  match znth l i with Some x => Ok x | None => Panic end.

(* s[i] = v on a list (no bounds check here; unchanged outside) *)
Fixpoint upd_nat {A} (l : list A) (n : nat) (v : A) : list A :=
  match l, n with
  | [], _ => []
  | _ :: r, O => v :: r
  | x :: r, S m => x :: upd_nat r m v
  end.
Definition zupd {A} (l : list A) (i : Z) (v : A) : list A :=
  if i <? 0 then l else upd_nat l (Z.to_nat i) v.

(* 0,1,...,n-1 *)
Definition zseq (n : Z) : list Z := map Z.of_nat (seq 0 (Z.to_nat n)).

Lemma zlen_nonneg {A} (l : list A) : 0 <= zlen l.
Proof. unfold zlen. lia. Qed.
Lemma zlen_nil {A} : zlen (@nil A) = 0.
Proof. reflexivity. Qed.
Lemma zlen_cons {A} (x : A) l : zlen (x :: l) = 1 + zlen l.
Proof. unfold zlen. cbn [length]. lia. Qed.
Lemma zlen_app {A} (l1 l2 : list A) : zlen (l1 ++ l2) = zlen l1 + zlen l2.
Proof. unfold zlen. rewrite app_length. lia. Qed.
Lemma zlen_map {A B} (f : A -> B) l : zlen (map f l) = zlen l.
Proof. unfold zlen. rewrite map_length. reflexivity. Qed.
Lemma zlen_rev {A} (l : list A) : zlen (rev l) = zlen l.
Proof. unfold zlen. rewrite rev_length. reflexivity. Qed.
Lemma zlen_repeat {A} (x : A) n : zlen (repeat x n) = Z.of_nat n.
Proof. unfold zlen. rewrite repeat_length. reflexivity. Qed.

Lemma znth_some_range {A} (l : list A) i x : znth l i = Some x -> 0 <= i < zlen l.
Proof.
  unfold znth, zlen. destruct (i <? 0) eqn:E; [discriminate|]. intros H.
  assert (Hn : nth_error l (Z.to_nat i) <> None) by (rewrite H; discriminate).
  apply nth_error_Some in Hn. lia.
Qed.

Lemma znth_in_range {A} (l : list A) i : 0 <= i < zlen l -> exists x, znth l i = Some x.
Proof.
  unfold znth, zlen. intros H. destruct (i <? 0) eqn:E; [lia|].
  destruct (nth_error l (Z.to_nat i)) as [x|] eqn:Hn; [exists x; reflexivity|].
  apply nth_error_None in Hn. lia.
Qed.

Lemma znth_none {A} (l : list A) i : znth l i = None <-> i < 0 \/ zlen l <= i.
Proof.
  unfold znth, zlen. destruct (i <? 0) eqn:E.
  - split; [lia|reflexivity].
  - rewrite nth_error_None. lia.
Qed.

Lemma znth_In {A} (l : list A) i x : znth l i = Some x -> In x l.
Proof.
  unfold znth. destruct (i <? 0); [discriminate|]. intros H. eapply nth_error_In; eassumption.
Qed.

Lemma In_znth {A} (l : list A) x : In x l -> exists i, znth l i = Some x.
Proof.
  intros H. apply In_nth_error in H. destruct H as (n & Hn). exists (Z.of_nat n).
  unfold znth. replace (Z.of_nat n <? 0) with false by lia. rewrite Nat2Z.id. exact Hn.
Qed.

Lemma znth_cons_0 {A} (x : A) l : znth (x :: l) 0 = Some x.
Proof. reflexivity. Qed.

Lemma znth_cons_pos {A} (x : A) l i : 0 < i -> znth (x :: l) i = znth l (i - 1).
Proof.
  intros H. unfold znth.
  replace (i <? 0) with false by lia. replace (i - 1 <? 0) with false by lia.
  replace (Z.to_nat i) with (S (Z.to_nat (i - 1))) by lia. reflexivity.
Qed.

Lemma znth_map {A B} (f : A -> B) l i : znth (map f l) i = option_map f (znth l i).
Proof. unfold znth. destruct (i <? 0); [reflexivity|]. apply nth_error_map. Qed.

Lemma znth_app_l {A} (l1 l2 : list A) i : i < zlen l1 -> znth (l1 ++ l2) i = znth l1 i.
Proof.
  intros H. unfold znth, zlen in *. destruct (i <? 0) eqn:E; [reflexivity|].
  apply nth_error_app1. lia.
Qed.

Lemma znth_app_r {A} (l1 l2 : list A) i :
  zlen l1 <= i -> znth (l1 ++ l2) i = znth l2 (i - zlen l1).
Proof.
  intros H. unfold znth, zlen in *.
  replace (i <? 0) with false by lia.
  replace (i - Z.of_nat (length l1) <? 0) with false by lia.
  rewrite nth_error_app2 by lia. f_equal. lia.
Qed.

Lemma nth_error_seq s n k : (k < n)%nat -> nth_error (seq s n) k = Some (s + k)%nat.
Proof.
  revert s k. induction n as [|n IH]; intros s k H; [lia|].
  destruct k as [|k]; simpl; [f_equal; lia|]. rewrite IH by lia. f_equal. lia.
Qed.

Lemma znth_zseq n i : 0 <= i < n -> znth (zseq n) i = Some i.
Proof.
  intros H. unfold zseq. rewrite znth_map. unfold znth.
  replace (i <? 0) with false by lia. rewrite nth_error_seq by lia. simpl. f_equal. lia.
Qed.

Lemma zlen_zseq n : zlen (zseq n) = Z.max 0 n.
Proof. unfold zseq, zlen. rewrite map_length, seq_length. lia. Qed.

Lemma In_zseq n i : In i (zseq n) <-> 0 <= i < n.
Proof.
  unfold zseq. rewrite in_map_iff. split.
  - intros (k & Hk & Hin). apply in_seq in Hin. lia.
  - intros H. exists (Z.to_nat i). split; [lia|]. apply in_seq. lia.
Qed.

Lemma zseq_nil n : n <= 0 -> zseq n = [].
Proof. intros H. unfold zseq. replace (Z.to_nat n) with O by lia. reflexivity. Qed.

Lemma zseq_succ n : 0 <= n -> zseq (n + 1) = zseq n ++ [n].
Proof.
  intros H. unfold zseq. replace (Z.to_nat (n + 1)) with (Z.to_nat n + 1)%nat by lia.
  rewrite seq_app, map_app. cbn [seq map]. f_equal. f_equal. lia.
Qed.

Lemma zseq_cons n : 0 < n -> zseq n = 0 :: map (fun i => i + 1) (zseq (n - 1)).
Proof.
  intros H. unfold zseq. replace (Z.to_nat n) with (S (Z.to_nat (n - 1))) by lia.
  cbn [seq map]. f_equal. rewrite <- seq_shift, !map_map. apply map_ext. intros a. lia.
Qed.

Lemma NoDup_zseq n : NoDup (zseq n).
Proof.
  unfold zseq. apply FinFun.Injective_map_NoDup.
  - intros a b H. lia.
  - apply seq_NoDup.
Qed.

Lemma nth_error_ext_eq {A} (l1 l2 : list A) :
  (forall n, nth_error l1 n = nth_error l2 n) -> l1 = l2.
Proof.
  revert l2. induction l1 as [|x r IH]; intros l2 H.
  - destruct l2 as [|y r2]; [reflexivity|]. specialize (H O). discriminate.
  - destruct l2 as [|y r2]; [specialize (H O); discriminate|].
    pose proof (H O) as H0. simpl in H0. inversion H0; subst. f_equal.
    apply IH. intros n. apply (H (S n)).
Qed.

Lemma znth_ext {A} (l1 l2 : list A) :
  zlen l1 = zlen l2 ->
  (forall i, 0 <= i < zlen l1 -> znth l1 i = znth l2 i) -> l1 = l2.
Proof.
  intros Hlen H. apply nth_error_ext_eq. intros n.
  destruct (Nat.lt_ge_cases n (length l1)) as [Hn|Hn].
  - specialize (H (Z.of_nat n)). unfold znth, zlen in *.
    replace (Z.of_nat n <? 0) with false in H by lia. rewrite Nat2Z.id in H. apply H. lia.
  - unfold zlen in Hlen.
    rewrite (proj2 (nth_error_None l1 n)) by lia.
    rewrite (proj2 (nth_error_None l2 n)) by lia. reflexivity.
Qed.

Lemma zat_ok {A} (l : list A) i x : zat l i = Ok x <-> znth l i = Some x.
Proof.
  unfold zat. destruct (znth l i) as [y|]; split; intros H; inversion H; reflexivity.
Qed.

Lemma upd_nat_length {A} (l : list A) n v : length (upd_nat l n v) = length l.
Proof.
  revert n. induction l as [|x r IH]; intros n; [destruct n; reflexivity|].
  destruct n as [|n]; simpl; [reflexivity|]. rewrite IH. reflexivity.
Qed.

Lemma upd_nat_same {A} (l : list A) n v :
  (n < length l)%nat -> nth_error (upd_nat l n v) n = Some v.
Proof.
  revert n. induction l as [|x r IH]; intros n H; simpl in H; [lia|].
  destruct n as [|n]; simpl; [reflexivity|]. apply IH. lia.
Qed.

Lemma upd_nat_other {A} (l : list A) n m v :
  n <> m -> nth_error (upd_nat l n v) m = nth_error l m.
Proof.
  revert n m. induction l as [|x r IH]; intros n m H; [destruct n; reflexivity|].
  destruct n as [|n], m as [|m]; simpl; try reflexivity; [lia|]. apply IH. lia.
Qed.

Lemma zlen_zupd {A} (l : list A) i v : zlen (zupd l i v) = zlen l.
Proof. unfold zupd, zlen. destruct (i <? 0); [reflexivity|]. rewrite upd_nat_length. reflexivity. Qed.

Lemma znth_zupd_same {A} (l : list A) i v :
  0 <= i < zlen l -> znth (zupd l i v) i = Some v.
Proof.
  intros H. unfold zlen in H. unfold znth, zupd. replace (i <? 0) with false by lia.
  apply upd_nat_same. lia.
Qed.

Lemma znth_zupd_other {A} (l : list A) i j v :
  i <> j -> znth (zupd l i v) j = znth l j.
Proof.
  intros H. unfold znth, zupd. destruct (j <? 0) eqn:Ej; [reflexivity|].
  destruct (i <? 0) eqn:Ei; [reflexivity|]. apply upd_nat_other. lia.
Qed.

Lemma zupd_out {A} (l : list A) i v : i < 0 \/ zlen l <= i -> zupd l i v = l.
Proof.
  intros H. apply znth_ext; [apply zlen_zupd|]. rewrite zlen_zupd. intros j Hj.
  apply znth_zupd_other. lia.
Qed.

Lemma Forall_znth {A} (P : A -> Prop) l :
  Forall P l <-> (forall i x, znth l i = Some x -> P x).
Proof.
  rewrite Forall_forall. split.
  - intros H i x Hx. apply H. eapply znth_In; eassumption.
  - intros H x Hx. apply In_znth in Hx. destruct Hx as (i & Hi). eapply H; eassumption.
Qed.

Lemma Forall2_znth {A B} (P : A -> B -> Prop) l1 l2 :
  Forall2 P l1 l2 ->
  forall i x y, znth l1 i = Some x -> znth l2 i = Some y -> P x y.
Proof.
  intros H i x y. unfold znth. destruct (i <? 0); [discriminate|].
  generalize (Z.to_nat i). clear i. intros n. revert n.
  induction H as [|a b r1 r2 Hab Hr IH]; intros n Hx Hy.
  - destruct n; discriminate.
  - destruct n as [|n]; simpl in *; [congruence|]. eapply IH; eassumption.
Qed.

Lemma Forall2_zlen {A B} (P : A -> B -> Prop) l1 l2 : Forall2 P l1 l2 -> zlen l1 = zlen l2.
Proof. intros H. unfold zlen. rewrite (Forall2_length _ _ _ H). reflexivity. Qed.

Lemma znth_firstn {A} (l : list A) n i :
  i < Z.of_nat n -> znth (firstn n l) i = znth l i.
Proof.
  intros H. unfold znth. destruct (i <? 0) eqn:E; [reflexivity|].
  assert (Hn : (Z.to_nat i < n)%nat) by lia. clear H E. revert n Hn.
  generalize (Z.to_nat i) as k. clear i. intros k. revert l.
  induction k as [|k IH]; intros l n Hn; destruct n as [|n]; try lia; destruct l as [|x r]; simpl; try reflexivity.
  apply IH. lia.
Qed.

Lemma znth_skipn {A} (l : list A) n i :
  0 <= i -> znth (skipn n l) i = znth l (i + Z.of_nat n).
Proof.
  intros H. unfold znth. replace (i <? 0) with false by lia.
  replace (i + Z.of_nat n <? 0) with false by lia.
  replace (Z.to_nat (i + Z.of_nat n)) with (n + Z.to_nat i)%nat by lia.
  clear H. revert l. induction n as [|n IH]; intros l; [reflexivity|].
  destruct l as [|x r]; simpl; [destruct (Z.to_nat i); reflexivity|]. apply IH.
Qed.

Lemma znth_rev {A} (l : list A) i :
  0 <= i < zlen l -> znth (rev l) i = znth l (zlen l - 1 - i).
Proof.
  intros H. unfold zlen in *. unfold znth. replace (i <? 0) with false by lia.
  replace (Z.of_nat (length l) - 1 - i <? 0) with false by lia.
  replace (Z.to_nat (Z.of_nat (length l) - 1 - i)) with (length l - S (Z.to_nat i))%nat by lia.
  destruct (nth_error l (length l - S (Z.to_nat i))) as [x|] eqn:E.
  - assert (Hi : (Z.to_nat i < length l)%nat) by lia.
    rewrite (nth_error_nth' (rev l) x) by (rewrite rev_length; lia).
    rewrite rev_nth by lia. rewrite (nth_error_nth l _ x E). reflexivity.
  - apply nth_error_None in E. lia.
Qed.

Lemma znth_repeat {A} (x : A) n i : 0 <= i < Z.of_nat n -> znth (repeat x n) i = Some x.
Proof.
  intros H. unfold znth. replace (i <? 0) with false by lia.
  apply nth_error_repeat. lia.
Qed.

(* normalise zlen of nil / cons *)
Ltac zl :=
  repeat match goal with
  | H : context [zlen (@nil ?A)] |- _ => change (zlen (@nil A)) with 0 in H
  | |- context [zlen (@nil ?A)] => change (zlen (@nil A)) with 0
  | H : context [zlen (_ :: _)] |- _ => rewrite zlen_cons in H
  | |- context [zlen (_ :: _)] => rewrite zlen_cons
  end.
Ltac zln := zl; repeat match goal with
  | l : list _ |- _ => lazymatch goal with
                       | _ : 0 <= zlen l |- _ => fail
                       | _ => pose proof (zlen_nonneg l)
                       end
  end.

(* as [zl]/[zln], also through the list functions *)
Ltac zla :=
  repeat first
    [ rewrite zlen_cons | rewrite zlen_app | rewrite zlen_map | rewrite zlen_rev | rewrite zlen_zupd
    | rewrite zlen_repeat | rewrite zlen_zseq | rewrite zlen_nil ].
Ltac zlh H :=
  repeat first
    [ rewrite zlen_cons in H | rewrite zlen_app in H | rewrite zlen_map in H | rewrite zlen_rev in H
    | rewrite zlen_zupd in H | rewrite zlen_repeat in H | rewrite zlen_zseq in H | rewrite zlen_nil in H ].
