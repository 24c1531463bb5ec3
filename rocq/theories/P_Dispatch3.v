(* When the function that serves the arguments fails at once. *)
From Coq Require Import String List ZArith Bool Lia.
From Verif Require Import Base M_Array P_Array M_Dispatch S_Dispatch P_Dispatch P_Dispatch2.
Import ListNotations.
Open Scope Z_scope.

Lemma isArray_iff : forall v, isArray v = true <-> an_array v.
Proof. intros v. split; [destruct v; try discriminate; constructor|intros H; inversion H; reflexivity]. Qed.
Lemma isObject_iff : forall v, isObject v = true <-> an_object v.
Proof. intros v. split; [destruct v; try discriminate; constructor|intros H; inversion H; reflexivity]. Qed.
Lemma isNumber_iff : forall v, isNumber v = true <-> a_number v.
Proof. intros v. split; [destruct v; try discriminate; constructor|intros H; inversion H; reflexivity]. Qed.
Lemma not_array : forall v, isArray v = false <-> ~ an_array v.
Proof. intros v. rewrite <- isArray_iff. destruct (isArray v); split; congruence. Qed.
Lemma not_object : forall v, isObject v = false <-> ~ an_object v.
Proof. intros v. rewrite <- isObject_iff. destruct (isObject v); split; congruence. Qed.
Lemma not_number : forall v, isNumber v = false <-> ~ a_number v.
Proof. intros v. rewrite <- isNumber_iff. destruct (isNumber v); split; congruence. Qed.
Lemma must_panic : forall b, must b = Panic <-> b = false.
Proof. destruct b; cbn; split; intros; congruence. Qed.
Lemma kind_dec : forall j k : akind, {j = k} + {j <> k}.
Proof. decide equality. Qed.
Lemma isKind_iff : forall k v, isKind k v = true <-> exists d xs, v = Arr k d xs.
Proof.
  intros k v. destruct v as [| |j d xs| | | | | | | |]; cbn; split; try discriminate; try (intros (? & ? & E); discriminate).
  - intros E. destruct k, j; try discriminate E; eauto.
  - intros (d' & xs' & E). injection E as -> -> ->. destruct k; reflexivity.
Qed.

(* a step of the entry *)
Lemma enterOf_first : forall hs L R h l x, firstOf hs L R = Ok (h, l, x) -> enterOf hs L R = Panic <-> hentry h l x = Panic.
Proof. intros hs L R h l x E. unfold enterOf. rewrite E. cbn. destruct (hentry h l x); cbn; split; congruence. Qed.
Lemma enterOf_panic : forall hs L R, firstOf hs L R = Panic -> enterOf hs L R = Panic.
Proof. intros hs L R E. unfold enterOf. rewrite E. reflexivity. Qed.
Lemma enterOf_err : forall hs L R, firstOf hs L R = Err -> enterOf hs L R <> Panic.
Proof. intros hs L R E. unfold enterOf. rewrite E. discriminate. Qed.

Lemma elem1_panic : forall c e R, In e elementarySymbols ->
  enterOf (rev (elementaryOf c e)) None R = Panic <-> e = "|"%string /\ ~ a_number R /\ ~ an_array R /\ ~ an_object R /\ R <> Chan.
Proof.
  intros c e R I. rewrite (enterOf_first _ _ _ _ _ _ (elem1 c e R)).
  assert (E : (String.eqb e "|" || String.eqb e "~")%bool = true <-> e = "|"%string).
  { rewrite orb_true_iff, !String.eqb_eq. split; [|auto]. intros [->| ->]; [reflexivity|]. cbn in I. repeat (destruct I as [I|I]; [discriminate I|]). destruct I. }
  destruct R; cbn [El nth elementaryOf hentry]; unfold arith1_entry, array1_entry, table1_entry, needR;
    try (split; [first [discriminate|destruct (String.eqb e "|" || String.eqb e "~")%bool; discriminate]|intros (_ & A & B & C & D); exfalso; first [apply A; apply isNumber_iff; reflexivity|apply B; apply isArray_iff; reflexivity|apply C; apply isObject_iff; reflexivity|apply D; reflexivity]]);
    (destruct (String.eqb e "|" || String.eqb e "~")%bool; split;
     [intros _; split; [apply E; reflexivity|repeat split; try discriminate; intros H; inversion H]|reflexivity|discriminate|intros (H & _); apply E in H; discriminate H]).
Qed.

Lemma asserts_elem : forall e, In e elementarySymbols -> asserts2 e = true <-> e = "|"%string.
Proof.
  intros e I. cbn [In elementarySymbols] in I. repeat (destruct I as [<-|I]; [cbn; split; [intros H; (reflexivity || discriminate H)|intros H; (reflexivity || discriminate H)]|]). destruct I.
Qed.
Lemma arith2_panic : forall e l R, arith2_entry e (Some l) R = Panic <-> asserts2 e = true /\ same_type l R = true /\ ~ a_number l.
Proof.
  intros e l R. unfold arith2_entry. rewrite <- not_number. destruct (asserts2 e), (same_type l R); cbn; try (split; [discriminate|intros (A & B & _); discriminate]).
  rewrite must_panic. tauto.
Qed.

Lemma elem2_panic : forall c e l R, In e elementarySymbols ->
  enterOf (rev (elementaryOf c e)) (Some l) R = Panic <->
  ((exists A r, R = AxisOf A r /\ blank A /\ ~ an_object l) \/
   (e = "|"%string /\ same_type l R = true /\ ~ a_number l /\ ~ an_array l /\ ~ an_object l /\ R <> Chan /\ forall A r, R = AxisOf A r -> ~ indices A)).
Proof.
  intros c e l R I. rewrite <- (asserts_elem e I).
  assert (D : R = Chan \/ R <> Chan) by (destruct R; (left; reflexivity) || (right; discriminate)). destruct D as [->|NC].
  { rewrite (enterOf_first _ _ _ _ _ _ (elem2_channel c e l)). split; [discriminate|]. intros [(A & r & H & _)|(_ & _ & _ & _ & _ & H & _)]; congruence. }
  destruct (isObject l || isObject R) eqn:EO.
  { rewrite (enterOf_first _ _ _ _ _ _ (elem2_object c e l R NC EO)). split.
    - destruct l; try discriminate EO; destruct R; try discriminate EO; discriminate.
    - intros [(A & r & -> & _ & H)|(_ & S & _ & _ & H & _)]; apply not_object in H; rewrite H in EO; cbn in EO; [discriminate|]. destruct l as [| | | | | | |[]| | |], R as [| | | | | | |[]| | |]; try discriminate S; try discriminate EO; discriminate H. }
  apply orb_false_iff in EO. destruct EO as [OL OR].
  destruct (isAxis R) eqn:EX.
  { destruct R as [| | | | | | | | |A r|]; try discriminate EX. pose proof (elem2_axis c e l A r) as F. rewrite OL in F.
    pose proof (ToIndexArray_answer A) as W. destruct W as [NI|B IA|d xs IA NB].
    - rewrite (enterOf_first _ _ _ _ _ _ F). destruct (isArray l) eqn:AL; cbn [El nth elementaryOf hentry].
      + split.
        * unfold array2_entry, lv. rewrite AL. destruct (isKind AEmpty l); cbn; discriminate.
        * intros [(A' & r' & H & B & _)|(_ & _ & _ & H & _)]; [injection H as <- <-; exfalso; apply NI; inversion B; apply indices_array; constructor|apply not_array in H; congruence].
      + rewrite arith2_panic. split.
        * intros (A1 & A2 & A3). right. repeat split; auto; [apply not_array; exact AL|apply not_object; exact OL|intros A' r' H; injection H as <- <-; exact NI].
        * intros [(A' & r' & H & B & _)|(A1 & A2 & A3 & _)]; [injection H as <- <-; exfalso; apply NI; inversion B; apply indices_array; constructor|auto].
    - rewrite (enterOf_first _ _ _ _ _ _ F). cbn. split; [|reflexivity]. intros _. left. exists A, r. repeat split; auto. apply not_object; exact OL.
    - rewrite (enterOf_first _ _ _ _ _ _ F). cbn [El nth elementaryOf hentry]. split.
      + unfold arrayAxis_entry. cbn [isKind akind_eqb must obind]. intros H. exfalso. revert H.
        destruct (isArray l) eqn:AL; cbn [lv]; rewrite ?AL; destruct (isArray r) eqn:AR; rewrite ?AR; cbn [isArray unified must obind];
        match goal with |- (if ?b then _ else _) = Panic -> _ => destruct b; discriminate end.
      + intros [(A' & r' & H & B & _)|(_ & _ & _ & _ & _ & _ & H)]; [injection H as <- <-; contradiction|exfalso; apply (H A r eq_refl); exact IA]. }
  assert (PR : plain R = true) by (destruct R; (reflexivity || discriminate || congruence)).
  destruct (isArray l && isArray R) eqn:EA.
  { apply andb_true_iff in EA. destruct EA as [AL AR]. destruct l as [| |kl ls xl| | | | | | | |]; try discriminate AL. destruct R as [| |kr rs xr| | | | | | | |]; try discriminate AR.
    split.
    - intros H. exfalso. revert H. pose proof (elem2_arrays c e kl ls xl kr rs xr) as F.
      assert (G : forall l' r', (isArray l' || isArray r' = true)%bool -> array2_entry (Some l') r' <> Panic).
      { intros l' r' Q. unfold array2_entry, lv. destruct (isKind AEmpty l' || isKind AEmpty r')%bool; [discriminate|]. rewrite Q. discriminate. }
      destruct xl as [|x [|x' xl]], xr as [|y [|y' xr]]; try (rewrite (enterOf_first _ _ _ _ _ _ F); apply G; reflexivity);
      destruct (sameShape ls rs); try (rewrite (enterOf_first _ _ _ _ _ _ F); apply G; reflexivity);
      try (rewrite (enterOf_first _ _ _ _ _ _ F); apply G; cbn; apply orb_true_r); apply enterOf_err; exact F.
    - intros [(A & r & H & _)|(_ & _ & _ & H & _)]; [discriminate H|exfalso; apply H; constructor]. }
  rewrite (enterOf_first _ _ _ _ _ _ (elem2_other c e l R PR OL EA)). destruct (isArray l || isArray R) eqn:EB; cbn [El nth elementaryOf hentry].
  - split.
    + unfold array2_entry, lv. rewrite EB. destruct (isKind AEmpty l || isKind AEmpty R)%bool; discriminate.
    + intros [(A & r & -> & _)|(_ & S & _ & H & _)]; [discriminate EX|]. apply not_array in H. rewrite H in EB. cbn in EB. destruct l as [| | | | | | |[]| | |], R as [| | | | | | |[]| | |]; try discriminate S; try discriminate EB; discriminate H.
  - apply orb_false_iff in EB. destruct EB as [AL AR]. rewrite arith2_panic. split.
    + intros (A1 & A2 & A3). right. repeat split; auto; [apply not_array; exact AL|apply not_object; exact OL|intros A r ->; discriminate EX].
    + intros [(A & r & -> & _)|(A1 & A2 & A3 & _)]; [discriminate EX|auto].
Qed.
