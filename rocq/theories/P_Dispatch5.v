(* Which calls fail at once: one symbol at a time. *)
From Coq Require Import String List ZArith Bool Lia.
From Verif Require Import Base M_Array P_Array M_Dispatch S_Dispatch P_Dispatch P_Dispatch2 P_Dispatch3 P_Dispatch4.
Import ListNotations.
Open Scope Z_scope.

Definition illSymbols : list string := elementarySymbols ++ booleanSymbols ++ (["~"; "⌽"; "⊖"; ","; "#"; "↑"; "↓"; "⍉"; "⍸"; "⍪"]%string).
Lemma ill_symbol : forall io sym L R, ill io sym L R -> In sym illSymbols.
Proof.
  intros io sym L R H. assert (B : forall s, existsb (String.eqb s) illSymbols = true -> In s illSymbols).
  { intros s E. apply existsb_exists in E. destruct E as (t & I & E). apply String.eqb_eq in E. rewrite E. exact I. }
  destruct H; try (apply B; reflexivity); try (apply in_or_app; left; assumption); try (apply in_or_app; right; apply in_or_app; left; assumption);
  match goal with I : In _ _ |- _ => cbn [In] in I; repeat (destruct I as [<-|I]; [apply B; reflexivity|]); destruct I end.
Qed.
Lemma good_not_ill : forall io sym L R, In sym goodSymbols -> ~ ill io sym L R.
Proof.
  intros io sym L R I H. apply ill_symbol in H.
  assert (A : forallb (fun s => negb (existsb (String.eqb s) illSymbols)) goodSymbols = true) by reflexivity.
  rewrite forallb_forall in A. specialize (A sym I). apply negb_true_iff in A.
  assert (B : existsb (String.eqb sym) illSymbols = true) by (apply existsb_exists; exists sym; split; [exact H|apply String.eqb_refl]). congruence.
Qed.

(* a safe function before others *)
Lemma enterOf_safe : forall h hs L R, safe h ->
  enterOf (h :: hs) L R = Panic <-> (forall l x, hdom h L R <> Ok (l, x, true)) /\ hdom h L R <> Err /\ enterOf hs L R = Panic.
Proof.
  intros h hs L R S. rewrite enterOf_cons. destruct (S L R) as [S1 S2]. destruct (hdom h L R) as [[[l x] []]| |]; cbn [obind].
  - specialize (S2 l x eq_refl). destruct (hentry h l x); cbn; (split; [congruence|intros (A & _); exfalso; apply (A l x); reflexivity]).
  - split; [intros E; repeat split; congruence|tauto].
  - split; [discriminate|intros (_ & A & _); congruence].
  - congruence.
Qed.

Ltac junk := repeat match goal with
  | I : In _ _ |- _ => progress cbn [In elementarySymbols booleanSymbols] in I
  | I : _ \/ _ |- _ => destruct I as [I|I]
  | I : False |- _ => destruct I
  | I : @eq string _ _ |- _ => discriminate I
  end.

Lemma strings_iff : forall xs, forallb isString xs = true <-> Forall (fun x => exists s, x = Str s) xs.
Proof.
  intros xs. rewrite forallb_forall, Forall_forall. split; intros H x I; specialize (H x I).
  - destruct x; try discriminate H. eauto.
  - destruct H as [s ->]. reflexivity.
Qed.
Lemma ToStringArray_command : forall l, (exists v, ToStringArray None l = Ok (v, true)) <-> command l.
Proof.
  intros l. unfold command, ToStringArray. destruct l as [|s|k d xs| | | | | | | |]; try (split; [intros [v H]; discriminate H|intros (s & [H|(k & d & xs & H & _)]); discriminate H]).
  - split; [intros _; exists s; left; reflexivity|intros _; cbn; eauto].
  - split.
    + intros [v H]. exists ""%string. right. exists k, d, xs. split; [reflexivity|].
      destruct k; try (left; reflexivity); right; apply strings_iff; destruct (forallb isString xs); (reflexivity || discriminate H).
    + intros (s & [H|(k' & d' & xs' & H & F)]); [discriminate H|]. injection H as <- <- <-.
      destruct F as [->|F]; [cbn; eauto|]. apply strings_iff in F. destruct k; cbn [propagate]; rewrite ?F; eauto.
Qed.
Lemma ToStringArray_total : forall l, ToStringArray None l <> Err /\ ToStringArray None l <> Panic.
Proof. intros l. unfold ToStringArray. destruct l as [|s|k d xs| | | | | | | |]; try (split; discriminate). destruct k; cbn; try (destruct (forallb isString xs)); split; discriminate. Qed.

Lemma ill_elementary : forall io e L R, In e elementarySymbols -> ill io e L R <->
  ((exists l A r, L = Some l /\ R = AxisOf A r /\ blank A /\ ~ an_object l /\ ~ (io = true /\ e = "!"%string /\ command l)) \/
   (e = "|"%string /\ match L with
     | None => ~ a_number R /\ ~ an_array R /\ ~ an_object R /\ R <> Chan
     | Some l => same_type l R = true /\ ~ a_number l /\ ~ an_array l /\ ~ an_object l /\ R <> Chan /\ forall A r, R = AxisOf A r -> ~ indices A end)).
Proof.
  intros io e L R I. split.
  - intros H. destruct H; try (exfalso; clear - I; junk; fail); try (exfalso; subst; junk; fail).
    + left. exists l, A, r. repeat split; auto.
    + right. repeat split; auto.
    + right. repeat split; auto.
    + exfalso. cbn [In booleanSymbols] in H. repeat (destruct H as [<-|H]; [junk|]). destruct H.
    + exfalso. cbn [In] in H. repeat (destruct H as [<-|H]; [junk|]). destruct H.
    + exfalso. cbn [In] in H. repeat (destruct H as [<-|H]; [junk|]). destruct H.
    + exfalso. cbn [In] in H. repeat (destruct H as [<-|H]; [junk|]). destruct H.
    + exfalso. cbn [In] in H. repeat (destruct H as [<-|H]; [junk|]). destruct H.
    + exfalso. cbn [In] in H. repeat (destruct H as [<-|H]; [junk|]). destruct H.
  - intros [(l & A & r & -> & -> & B & O & N)|(-> & H)].
    + apply ill_axis; auto.
    + destruct L as [l|]; [destruct H as (A & B & C & D & E & F); apply ill_residue; auto|destruct H as (A & B & C & D); apply ill_magnitude; auto].
Qed.

Lemma elementary_panic : forall c io e L R, In e elementarySymbols -> enter c io e L R = Panic <-> ill io e L R.
Proof.
  intros c io e L R I. rewrite enter_is, (elementary_handles c io e I), (ill_elementary io e L R I).
  assert (G : enterOf (rev (elementaryOf c e)) L R = Panic <->
    (exists l A r, L = Some l /\ R = AxisOf A r /\ blank A /\ ~ an_object l) \/
   (e = "|"%string /\ match L with
     | None => ~ a_number R /\ ~ an_array R /\ ~ an_object R /\ R <> Chan
     | Some l => same_type l R = true /\ ~ a_number l /\ ~ an_array l /\ ~ an_object l /\ R <> Chan /\ forall A r, R = AxisOf A r -> ~ indices A end)).
  { destruct L as [l|].
    - rewrite (elem2_panic c e l R I). split; (intros [H|H]; [left|right; tauto]).
      + destruct H as (A & r & H1 & H2 & H3). exists l, A, r. auto.
      + destruct H as (l' & A & r & E & H). injection E as <-. exists A, r. exact H.
    - rewrite (elem1_panic c e R I). split; [tauto|]. intros [(l & A & r & H & _)|H]; [discriminate H|tauto]. }
  destruct (String.eqb e "⌊") eqn:EF.
  { apply String.eqb_eq in EF. subst e. rewrite andb_false_r. cbn [app]. rewrite enterOf_safe by apply roundTime_safe. rewrite G. cbn [hdom]. split.
    - intros (_ & _ & [(l & A & r & H1 & H2 & H3 & H4)|(H & _)]); [|discriminate H]. left. exists l, A, r. repeat split; auto. intros (_ & H & _). discriminate H.
    - intros [(l & A & r & -> & -> & H3 & H4 & _)|(H & _)]; [|discriminate H]. repeat split.
      + intros l' x. destruct l; discriminate.
      + destruct l; discriminate.
      + left. exists l, A, r. auto. }
  cbn [app]. destruct (io && String.eqb e "!")%bool eqn:EX.
  { apply andb_true_iff in EX. destruct EX as [-> EX]. apply String.eqb_eq in EX. subst e. cbn [app].
    rewrite enterOf_safe by apply exec2_safe. rewrite enterOf_safe by apply exec1_safe. rewrite G. cbn [hdom].
    destruct L as [l|].
    - unfold Dyadic, Split, Monadic. pose proof (ToStringArray_command l) as TC. destruct (ToStringArray_total l) as [T1 T2].
      destruct (ToStringArray None l) as [[v []]| |]; try congruence; cbn [obind snd fst negb].
      + split.
        * intros (H & _). exfalso. apply (H (Some v) R). reflexivity.
        * intros [(l' & A & r & E & _ & _ & _ & N)|(H & _)]; [|discriminate H]. injection E as <-. exfalso. apply N. repeat split. apply TC. eauto.
      + split.
        * intros (_ & _ & _ & _ & [(l' & A & r & E & H2 & H3 & H4)|(H & _)]); [|discriminate H]. injection E as <-. left. exists l, A, r. repeat split; auto.
          intros (_ & _ & C). apply TC in C. destruct C as [w C]. discriminate C.
        * intros [(l' & A & r & E & H2 & H3 & H4 & _)|(H & _)]; [|discriminate H]. injection E as <-. repeat split; try discriminate. left. exists l, A, r. auto.
    - split; [intros (_ & _ & _ & _ & [(l' & A & r & E & _)|(H & _)]); [discriminate E|discriminate H]|intros [(l' & A & r & E & _)|(H & _)]; [discriminate E|discriminate H]]. }
  cbn [app]. rewrite G. split; (intros [H|H]; [left|right; exact H]).
  - destruct H as (l & A & r & H1 & H2 & H3 & H4). exists l, A, r. repeat split; auto. intros (-> & -> & _). discriminate EX.
  - destruct H as (l & A & r & H1 & H2 & H3 & H4 & _). exists l, A, r. auto.
Qed.
