(* P_Domino2.v -- matrix divide on arrays. *)
From Verif Require Import Base M_Array S_Array P_Array M_Domino S_Domino P_Domino.
From Coq Require Import Lia PeanoNat Field.

Lemma nth_rows : forall {Y} (f : nat -> nat -> Y) m z n s i k, (i < n)%nat -> (k < m)%nat ->
  nth (i * m + k) (flat_map (fun i => map (f i) (seq 0 m)) (seq s n)) z = f (s + i)%nat k.
Proof.
  intros Y f m z. induction n as [|n IH]; intros s i k Hi Hk; [lia|]. cbn [seq flat_map]. destruct i as [|i].
  - rewrite app_nth1 by (rewrite map_length, seq_length; lia). cbn [Nat.mul Nat.add].
    rewrite (nth_indep _ z (f s 0%nat)) by (rewrite map_length, seq_length; lia). rewrite map_nth, seq_nth by lia. f_equal. lia.
  - rewrite app_nth2 by (rewrite map_length, seq_length; lia). rewrite map_length, seq_length.
    replace (S i * m + k - m)%nat with (i * m + k)%nat by (cbn; lia). rewrite IH by lia. f_equal. lia.
Qed.
Lemma rows_length : forall {Y} (f : nat -> nat -> Y) m n s, length (flat_map (fun i => map (f i) (seq 0 m)) (seq s n)) = (n * m)%nat.
Proof. induction n as [|n IH]; intros s; [reflexivity|]. cbn [seq flat_map]. rewrite app_length, map_length, seq_length, IH. reflexivity. Qed.

Section Arrays.
  Context {F : Type} (zero one : F) (add mul sub : F -> F -> F) (opp inv : F -> F)
    (fdiv : F -> F -> outcome F) (fabs : F -> F) (less : F -> F -> bool) (iszero : F -> bool)
    (X : exact_field zero one add mul sub opp inv fdiv fabs less iszero).
  Set Default Proof Using "X".
  Let Fth := ef_field _ _ _ _ _ _ _ _ _ _ _ X.
  Add Field Ffield2 : Fth.
  Local Notation entry := (entry zero).
  Local Notation total := (total zero add).
  Local Notation row_times := (row_times zero add mul).
  Local Notation solve := (solve zero mul sub fdiv fabs less iszero).
  Local Notation dependent := (dependent zero add mul).

  Lemma entry_array_of : forall n m (f : nat -> nat -> F) i k, (i < n)%nat -> (k < m)%nat -> entry (array_of n m f) m i k = f i k.
  Proof. intros n m f i k Hi Hk. unfold S_Domino.entry, array_of. cbn [elems]. rewrite nth_rows by assumption. reflexivity. Qed.
  Lemma array_of_wf : forall n m (f : nat -> nat -> F), wf (array_of n m f).
  Proof.
    intros n m f. split; [discriminate|]. split; [repeat constructor; lia|]. unfold array_of. cbn [elems dims size].
    unfold zlen. rewrite rows_length. lia.
  Qed.
  Lemma solve_spec : forall n m A B,
    (exists Y, solve n m A B = Ok Y /\ dims Y = [Z.of_nat n; Z.of_nat m] /\ wf Y /\
       (forall i k, (i < n)%nat -> (k < m)%nat -> row_times n A (fun j => entry Y m j k) i = B i k) /\
       forall v, (forall i, (i < n)%nat -> row_times n A v i = zero) -> forall i, (i < n)%nat -> v i = zero)
    \/ (solve n m A B = Err /\ dependent n n A).
  Proof.
    intros n m A B. unfold M_Domino.solve.
    destruct (lu_spec zero one add mul sub opp inv fdiv fabs less iszero X n A) as [(M & P & E & D)|(E & i & M & P & Hi & D & Z0)]; rewrite E; cbn [obind].
    - left. eexists. split; [reflexivity|]. split; [reflexivity|]. split; [apply array_of_wf|]. split.
      + intros i k Hi Hk. unfold S_Domino.row_times.
        rewrite (total_ext zero one add mul sub opp inv fdiv fabs less iszero X n _ (fun j => mul (A i j) (luSolve zero mul sub fdiv n M (fun r => B r k) P j))).
        * exact (luSolve_spec zero one add mul sub opp inv fdiv fabs less iszero X n A M P (fun r => B r k) D i Hi).
        * intros j Hj. rewrite entry_array_of by assumption. reflexivity.
      + intros v Hv. exact (decomposed_independent zero one add mul sub opp inv fdiv fabs less iszero X n A M P v D Hv).
    - right. split; [reflexivity|]. apply (singular_dependent zero one add mul sub opp inv fdiv fabs less iszero X n i A M P Hi D Z0).
      exact (one_not_zero zero one add mul sub opp inv fdiv fabs less iszero X).
  Qed.
  (* the inner product *)
  Lemma rsum_total : forall (f : nat -> F) m s, rsum zero add (map f (seq s m)) = total m (fun k => f (s + k)%nat).
  Proof.
    intros f m s. rewrite <- (sum_seq zero one add mul sub opp inv fdiv fabs less iszero X f m s).
    generalize (map f (seq s m)). induction l as [|x [|y l] IH]; [reflexivity|cbn; ring|]. cbn [rsum fold_right] in *. rewrite IH. reflexivity.
  Qed.
  Lemma mmul_total : forall r c k A B i j, mmul zero add mul r c k A B i j = total c (fun t => mul (A i t) (B t j)).
  Proof. intros. unfold mmul. apply rsum_total. Qed.
End Arrays.
