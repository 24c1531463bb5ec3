(* Prop_Gaps6.v -- statements about the cases that earlier theorems left out: the
   exponential and infinite floats (C137), a newline in a quoted text (C160) and
   a table indexed by an empty array alone (C102). *)
From Coq Require Import String QArith Qabs Qround Qfield Lia.
From Verif Require Import Base M_Array S_Array P_Array Eff M_Number M_Big S_Big P_Big P_Big2 P_Big3 P_Big4 P_Big6 Prop_Big Prop_Big2 Prop_Big4.
Open Scope Z_scope.

(* the order of floats: -inf, the numbers, +inf; Inf true is -inf *)
Definition below (x y : fl) : Prop :=
  match x, y with
  | Fin a, Fin b => (a < b)%Q
  | Inf true, Fin _ | Inf true, Inf false | Fin _, Inf false => True
  | _, _ => False
  end.
Definition same (x y : fl) : Prop :=
  match x, y with Fin a, Fin b => (a == b)%Q | Inf a, Inf b => a = b | _, _ => False end.

Section C137.
  Context (rnd : Z -> Q -> fl) (sqt : Z -> Q -> fl) (f64 : fl -> fl).
  Context (fexp flog : flt -> flt) (fpow : flt -> flt -> flt).
  Notation arith1 := (arith1 rnd sqt f64 fexp flog). Notation arith2 := (arith2 rnd f64 flog fpow).
  (* The exponential is the one of package bigfloat; one that is infinite is the error value inf. *)
  Theorem C137_exponential : forall k h i f, znth h i = Some (CFlt f) ->
    ((exists q, fv (fexp f) = Fin q) -> makes (arith1 (Precise k) Exp (VF i)) h (fexp f)) /\
    ((exists s, fv (fexp f) = Inf s) -> exists h', arith1 (Precise k) Exp (VF i) h = (Ok (VX "inf"), h') /\ unchanged h h').
  Proof.
    intros k h i f Hi.
    assert (E : call1 rnd sqt f64 fexp flog Exp (VF i) h = (Ok (Some (if is_inf (fv (fexp f)) then VX "inf" else VF (zlen h))), h ++ [CFlt (fexp f)])).
    { cbn [call1]. unfold Float_Pow. rewrite (ebind_ok _ _ _ _ _ (getf_at _ _ _ Hi)). destruct (is_inf (fv (fexp f))); reflexivity. }
    split; intros [q Q]; rewrite Q in E; cbn [is_inf] in E.
    - exists (zlen h), (h ++ [CFlt (fexp f)]). split; [apply (arith1_some _ _ _ _ _ _ _ _ _ _ _ E)|].
      split; [unfold fresh_after; lia|split; [apply znth_last|apply unchanged_t]].
    - exists (h ++ [CFlt (fexp f)]). split; [apply (arith1_some _ _ _ _ _ _ _ _ _ _ _ E)|apply unchanged_t].
  Qed.
  (* Two floats, infinite ones too, are compared by their places in the order. *)
  Theorem C137_order : forall k h i j f g, znth h i = Some (CFlt f) -> znth h j = Some (CFlt g) ->
    exists l e, arith2 (Precise k) LESS (VF i) (VF j) h = (Ok (VB l), h) /\ arith2 (Precise k) EQ (VF i) (VF j) h = (Ok (VB e), h) /\
      (l = true <-> below (fv f) (fv g)) /\ (e = true <-> same (fv f) (fv g)).
  Proof.
    intros k h i j f g Hi Hj. destruct (C137_compare rnd f64 flog fpow k h i j f g Hi Hj) as [L E].
    do 2 eexists. split; [exact L|]. split; [exact E|]. destruct (fv f) as [a|a], (fv g) as [b|b]; cbn [f_cmp below same].
    - split; [rewrite Qlt_alt|rewrite Qeq_alt]; destruct (Qcompare a b); cbn; split; congruence.
    - destruct b; cbn; intuition congruence.
    - destruct a; cbn; intuition congruence.
    - destruct a, b; cbn; intuition congruence.
  Qed.
End C137.
Example C137_order_inf : below (Inf true) (Fin 0%Q) /\ ~ below (Fin 0%Q) (Inf true). Proof. cbn; tauto. Qed.

From Verif Require Import M_Scan M_Strings M_Format M_Json.
(* A text with a newline between its quotes is not a string. *)
Theorem C160_newline : forall s, In 10 s -> Unquote (34 :: s ++ [34]) = None.
Proof.
  intros s H. unfold Unquote. rewrite rev_app_distr. cbn [rev app]. change (34 =? r_dquote) with true. cbn [andb]. rewrite rev_involutive. cbv zeta.
  replace (existsb (Z.eqb 10) s) with true; [reflexivity|]. symmetry. apply existsb_exists. exists 10. split; [exact H|apply Z.eqb_refl].
Qed.
Example C160_newline_ex : Unquote (34 :: [97; 10; 98] ++ [34]) = None. Proof. apply C160_newline. cbn; auto. Qed.
Example C160_no_newline_ex : Unquote (34 :: [97; 98] ++ [34]) = Some [97; 98]. Proof. reflexivity. Qed.

From Verif Require Import M_Structural P_Transpose S_Number P_Number P_Tower M_Scalar P_Scalar M_Dict S_Dict P_Dict S_Operators M_Table S_Table P_Table P_Table2 P_Table3.
Section C102.
  Context {P : Type} (M : methods P) {K : Type} (keq : K -> K -> bool) (skey : string -> K) (origin : Z).
  (* A table indexed by an empty array alone has no columns: the empty array is a list of no column names. *)
  Theorem C102_no_names : forall T : @table P K, 0 <= Rows T ->
    exists d, keysOf d = [] /\ (forall k, At keq d k = None) /\ 
      tableIndex M keq skey origin T RowAll ColNone = Ok (if Rows T =? 1 then TDict d else TTable (mkTable d (Rows T))).
  Proof.
    intros T H. exists (ofpairs keq []). split; [reflexivity|]. split; [reflexivity|].
    unfold tableIndex, tableSelection. cbn [select_cols as_strings map find_cols mapM obind fst snd select_rows].
    unfold find_cols. cbn [mapM obind fst snd select_rows].
    rewrite (check_ok origin) by (apply Forall_forall; intros x Hx; apply In_zseq in Hx; lia). cbn [obind fst snd conv_spec andb].
    unfold index_conv, subtable. cbn [mapM obind].
    pose proof (zlen_zseq (Rows T)) as L. replace (Z.max 0 (Rows T)) with (Rows T) in L by lia.
    destruct (zseq (Rows T)) as [|a [|b l]].
    - change (zlen []) with 0 in L. replace (Rows T =? 1) with false by lia. cbn. rewrite <- L. reflexivity.
    - change (zlen [a]) with 1 in L. replace (Rows T =? 1) with true by lia. reflexivity.
    - rewrite !zlen_cons in L. pose proof (zlen_nonneg l). replace (Rows T =? 1) with false by lia. cbn [obind]. rewrite !zlen_cons, L. reflexivity.
  Qed.
End C102.
