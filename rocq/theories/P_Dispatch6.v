(* Which calls fail at once: the remaining symbols. *)
From Coq Require Import String List ZArith Bool Lia.
From Verif Require Import Base M_Array P_Array M_Dispatch S_Dispatch P_Dispatch P_Dispatch2 P_Dispatch3 P_Dispatch4 P_Dispatch5.
Import ListNotations.
Open Scope Z_scope.

Ltac inv_ill H := inversion H; subst; junk.

Lemma enterOf_nil : forall L R, enterOf [] L R <> Panic.
Proof. discriminate. Qed.

Lemma boolean_panic : forall c io e L R, In e booleanSymbols -> enter c io e L R = Panic <-> ill io e L R.
Proof.
  intros c io e L R I. rewrite enter_is.
  assert (HH : handlesOf (registered c io) e = rev (scalar2Of e) /\ asserts2 e = true /\ ~ In e elementarySymbols /\ ~ In e ["⌽"; "⊖"]%string /\ ~ In e ["↑"; "↓"]%string /\
    (~ In e ["|"; "~"; ","; "#"; "↑"; "↓"; "⍉"; "⍸"; "⍪"]%string)).
  { cbn [In booleanSymbols] in I. destruct io; repeat (destruct I as [<-|I]; [split; [handles; reflexivity|split; [reflexivity|repeat split; intros J; junk]]|]); destruct I. }
  destruct HH as (-> & AS & N1 & N2 & N3 & N4).
  assert (IL : ill io e L R <-> exists l, L = Some l /\ same_type l R = true /\ ~ a_number l /\ ~ an_array l).
  { split.
    - intros H. destruct H; try contradiction; try (exfalso; apply N4; cbn; tauto). exists l. auto.
    - intros (l & -> & A & B & C). apply ill_logical; auto. }
  rewrite IL. clear IL. cbn [rev app scalar2Of]. rewrite enterOf_safe by apply safe_arrays. cbn [hdom]. rewrite enterOf_cons. cbn [hdom hentry].
  destruct L as [l|].
  2:{ cbn. split; [intros (_ & _ & H); discriminate H|intros (l & H & _); discriminate H]. }
  unfold Dyadic, Split, IsScalar, scalarTo. destruct (isArray l) eqn:AL.
  { destruct l as [| |k d xs| | | | | | | |]; try discriminate AL. cbn [negb obind snd fst]. split; [intros (_ & _ & H); discriminate H|].
    intros (l & E & _ & _ & H). injection E as <-. exfalso. apply H. constructor. }
  destruct (isArray R) eqn:AR.
  { destruct R as [| |k d xs| | | | | | | |]; try discriminate AR. split.
    - intros (_ & _ & H). destruct l; discriminate.
    - intros (l' & E & S & _). injection E as <-. destruct l as [| |k' d' xs'| | | | |[]| | |]; try discriminate S; discriminate AL. }
  assert (X : arrays (Some l) R = Ok (Some l, R, false)) by (destruct l, R; try discriminate AL; try discriminate AR; reflexivity). rewrite X.
  match goal with |- context [obind ?a _] => replace a with (@Ok (value * bool) (l, true)) by (destruct l; (reflexivity || discriminate AL)) end. cbn [obind snd fst negb].
  match goal with |- context [obind ?a _] => replace a with (@Ok (value * bool) (R, true)) by (destruct R; (reflexivity || discriminate AR)) end. cbn [obind snd fst negb].
  pose proof (arith2_panic e l R) as AP. rewrite AS in AP. destruct (arith2_entry e (Some l) R) as [u| |]; cbn [obind].
  - split; [intros (_ & _ & H); discriminate H|]. intros (l' & E & A & B & C). injection E as <-. exfalso. assert (H : @Ok unit u = Panic) by (apply AP; auto). discriminate H.
  - split; [intros (_ & _ & H); discriminate H|]. intros (l' & E & A & B & C). injection E as <-. exfalso. assert (H : @Err unit = Panic) by (apply AP; auto). discriminate H.
  - split; [|intros _; repeat split; discriminate]. intros _. exists l. destruct (proj1 AP eq_refl) as (_ & A & B). repeat split; auto. apply not_array; exact AL.
Qed.

Lemma not_panic : forall c io L R, enter c io "~" L R = Panic <-> ill io "~" L R.
Proof.
  intros c io L R. rewrite enter_is.
  assert (HH : handlesOf (registered c io) "~" = [mkH "~" "without" (Dyadic (Some (Split (Some (ToVector c None)) (Some (ToVector c None))))) free;
    mkH "~" "notArray" (Monadic (Some (IsArray None))) array1_entry; mkH "~" "not" (Monadic (Some (IsScalar None))) (arith1_entry "~")]) by (destruct io; handles; reflexivity).
  rewrite HH. clear HH.
  assert (IL : ill io "~" L R <-> L = None /\ ~ a_number R /\ ~ an_array R).
  { split; [intros H; inv_ill H; auto|intros (-> & A & B); apply ill_not; auto]. }
  rewrite IL. clear IL. destruct L as [l|].
  - split; [|intros (H & _); discriminate H]. intros H. exfalso. revert H. rewrite enterOf_safe by (eapply safe_S; [apply ToVector_sound|apply ToVector_sound|discriminate]). intros (_ & _ & H). discriminate H.
  - unfold enterOf. cbn [firstOf hdom Dyadic obind]. rewrite <- not_array, <- not_number. destruct R; cbn; split; try discriminate; try tauto; try (intros (_ & A & B); discriminate).
Qed.

(* the axis of a call *)
Lemma splitAxis_panic : forall R, splitAxis R = Panic <-> blank_axis R.
Proof.
  intros R. destruct R as [| | | | | | | | |A r|]; try (split; [discriminate|intros H; inversion H]). unfold splitAxis. destruct (isKind AEmpty A) eqn:EK.
  - split; [discriminate|]. intros H. inversion H; subst. apply isKind_iff in EK. destruct EK as (d' & xs & E). congruence.
  - destruct (ToIndexArray_answer A) as [NI|B IA|d xs IA NB]; cbn [obind snd fst negb].
    + split; [discriminate|]. intros H. inversion H; subst. exfalso. apply NI. apply indices_array. constructor.
    + cbn. split; [|reflexivity]. intros _. inversion B as [k d NK E]; subst. constructor; [exact NK|]. intros ->. discriminate EK.
    + destruct (zlen d =? 1); cbn; (split; [discriminate|]); intros H; inversion H; subst; exfalso; apply NB; constructor; assumption.
Qed.
Lemma oneAxis_panic : forall R, oneAxis R = Panic <-> blank_axis R.
Proof.
  intros R. rewrite <- splitAxis_panic. unfold oneAxis. destruct (isAxis R) eqn:EX.
  - destruct (splitAxis R) as [[r [[|z [|y zs]]|]]| |]; cbn; split; congruence.
  - destruct R; try discriminate EX; cbn; split; congruence.
Qed.
(* the argument of a call along one axis *)
Lemma oneAxis_array : forall R, (exists r, oneAxis R = Ok r /\ isArray r = true) <->
  (an_array R \/ exists x n r, R = AxisOf x r /\ an_array r /\ (index_of x n \/ exists k m y, x = Arr k [m] [y] /\ k <> AEmpty /\ index_of y n)).
Proof.
  intros R. split.
  - intros (r & E & AR). unfold oneAxis in E. destruct (isAxis R) eqn:EX.
    2:{ injection E as ->. left. apply isArray_iff. exact AR. }
    right. destruct R as [| | | | | | | | |A r'|]; try discriminate EX. unfold splitAxis in E. destruct (isKind AEmpty A) eqn:EK; [discriminate E|].
    destruct A as [t i|s|k d xs| | |t| |f|n|A' R'|t]; try discriminate E.
    + cbn in E. destruct i as [z|]; [|discriminate E]. cbn in E. injection E as <-. exists (Num t (Some z)), z, r'. repeat split; [apply isArray_iff; exact AR|left; constructor].
    + assert (KE : k <> AEmpty) by (intros ->; discriminate EK). destruct (kind_dec k AInt) as [->|NI].
      * cbn in E. destruct d as [|m [|m' d]]; try (cbn in E; discriminate E).
        2:{ replace (zlen (m :: m' :: d) =? 1) with false in E by (unfold zlen; cbn [List.length]; lia). discriminate E. }
        change (zlen [m] =? 1) with true in E. cbn [negb obind snd] in E. destruct xs as [|x [|y xs]]; cbn in E; try discriminate E.
        -- destruct (toIdx x) as [z|] eqn:EZ; [|discriminate E]. injection E as <-. destruct x; try discriminate EZ. cbn in EZ. subst.
           exists (Arr AInt [m] [Num t (Some z)]), z, r'. repeat split; [apply isArray_iff; exact AR|right]. exists AInt, m, (Num t (Some z)). repeat split; auto.
        -- destruct (toIdx x) as [z|]; [|discriminate E]. destruct (toIdx y); [|discriminate E]. destruct (toIdxs xs); discriminate E.
      * assert (TT : ToIndexArray None (Arr k d xs) = if zlen xs =? 0 then Ok (emptyArray, true) else match toIdxs xs with Some l => Ok (Arr AInt d (map intOf l), true) | None => Ok (Arr k d xs, false) end) by (destruct k; (reflexivity || congruence)).
        rewrite TT in E. clear TT. destruct xs as [|x xs]; [discriminate E|].
        replace (zlen (x :: xs) =? 0) with false in E by (unfold zlen; cbn [List.length]; lia). cbn [toIdxs] in E.
        destruct (toIdx x) as [z|] eqn:EZ; [|discriminate E]. destruct (toIdxs xs) as [l|] eqn:EL; [|discriminate E]. cbn [obind snd fst negb] in E.
        destruct d as [|m [|m' d]]; [discriminate E| |].
        2:{ replace (zlen (m :: m' :: d) =? 1) with false in E by (unfold zlen; cbn [List.length]; lia). discriminate E. }
        change (zlen [m] =? 1) with true in E. cbn [negb obind snd fst] in E. cbn [map toIdxs intOf toIdx] in E.
        destruct l as [|z' l]; [|cbn in E; destruct (toIdxs (map intOf l)); discriminate E]. cbn in E. injection E as <-.
        assert (xs = []) as ->. { destruct xs as [|y ys]; [reflexivity|]. cbn in EL. destruct (toIdx y); [|discriminate EL]. destruct (toIdxs ys); discriminate EL. }
        destruct x; try discriminate EZ. cbn in EZ. subst.
        exists (Arr k [m] [Num t (Some z)]), z, r'. repeat split; [apply isArray_iff; exact AR|right]. exists k, m, (Num t (Some z)). repeat split; auto.
  - intros [H|(x & n & r & -> & HA & HX)].
    + inversion H; subst. eexists. split; [reflexivity|reflexivity].
    + exists r. split; [|apply isArray_iff; exact HA]. destruct HX as [HX|(k & m & y & -> & NK & HX)].
      * inversion HX; subst. reflexivity.
      * inversion HX; subst. unfold oneAxis, splitAxis. cbn [isAxis]. replace (isKind AEmpty (Arr k [m] [Num t (Some n)])) with false by (destruct k; (reflexivity || congruence)).
        destruct k; try congruence; reflexivity.
Qed.

Lemma rotate_panic : forall c io e L R, In e ["⌽"; "⊖"]%string -> enter c io e L R = Panic <-> ill io e L R.
Proof.
  intros c io e L R I. rewrite enter_is.
  assert (HH : exists n1 n2, handlesOf (registered c io) e = [mkH e n1 (Dyadic (Some (Split (Some (ToIndexArray None)) None))) rotate_entry; mkH e n2 (Monadic None) reverse_entry]).
  { cbn [In] in I. destruct io; repeat (destruct I as [<-|I]; [handles; eexists; eexists; reflexivity|]); destruct I. }
  destruct HH as (n1 & n2 & ->).
  assert (IL : ill io e L R <-> match L with
    | None => blank_axis R
    | Some l => (indices l /\ blank_axis R) \/ (blank l /\ (an_array R \/ exists x n r, R = AxisOf x r /\ an_array r /\ (index_of x n \/ exists k m y, x = Arr k [m] [y] /\ k <> AEmpty /\ index_of y n))) end).
  { split.
    - intros H. destruct H; try (exfalso; clear - I; junk; fail); try (exfalso; subst; clear - I H; junk; fail); try (exfalso; cbn [In elementarySymbols booleanSymbols] in H; repeat (destruct H as [<-|H]; [clear - I; junk|]); destruct H; fail); auto 6.
      right. split; [assumption|]. right. exists x, n, r. auto.
    - destruct L as [l|].
      + intros [[A B]|[A [B|(x & n & r & -> & B & C)]]]; [apply ill_rotate_axis; auto|apply ill_rotate; auto|eapply ill_rotate_along; eauto].
      + intros A. apply ill_reverse_axis; auto. }
  rewrite IL. clear IL. rewrite !enterOf_cons. cbn [hdom hentry]. destruct L as [l|].
  - unfold Dyadic, Split. pose proof (ToIndexArray_answer l) as W. rewrite <- oneAxis_array, <- oneAxis_panic. destruct W as [NI|B IA|d xs IA NB]; cbn [obind snd fst negb].
    + split; [discriminate|]. intros [[A _]|[A _]]; [contradiction|]. exfalso. apply NI. inversion A. apply indices_array. constructor.
    + unfold rotate_entry. destruct (oneAxis R) as [r| |] eqn:EO; cbn [obind].
      * destruct (isArray r) eqn:AR; cbn.
        -- split; [|reflexivity]. intros _. right. split; [exact B|]. exists r. auto.
        -- split; [discriminate|]. intros [[_ H]|(_ & r' & H & AR')]; [discriminate H|]. injection H as <-. congruence.
      * split; [discriminate|]. intros [[_ H]|(_ & r' & H & _)]; discriminate H.
      * split; [|reflexivity]. intros _. left. auto.
    + unfold rotate_entry. destruct (oneAxis R) as [r| |] eqn:EO; cbn [obind].
      * replace (if isArray r then must (lv (Some (Arr AInt d xs)) (isKind AInt)) else Ok tt) with (@Ok unit tt) by (destruct (isArray r); reflexivity). cbn [obind].
        split; [discriminate|]. intros [[_ H]|[H _]]; [discriminate H|contradiction].
      * split; [discriminate|]. intros [[_ H]|[H _]]; [discriminate H|contradiction].
      * split; [|reflexivity]. intros _. left. auto.
  - cbn [Dyadic Monadic obind]. unfold reverse_entry. rewrite <- oneAxis_panic. destruct (oneAxis R); cbn; split; congruence.
Qed.

Lemma ravel_panic : forall c io L R, enter c io "," L R = Panic <-> ill io "," L R.
Proof.
  intros c io L R. rewrite enter_is.
  assert (HH : handlesOf (registered c io) "," = [mkH "," "catenate" (Dyadic None) free; mkH "," "ravel" (Monadic None) ravel_entry]) by (destruct io; handles; reflexivity).
  rewrite HH. clear HH.
  assert (IL : ill io "," L R <-> L = None /\ blank_axis R) by (split; [intros H; inv_ill H; auto|intros [-> H]; apply ill_ravel_axis; exact H]).
  rewrite IL. clear IL. rewrite !enterOf_cons. destruct L as [l|]; cbn; [split; [discriminate|intros [H _]; discriminate H]|].
  unfold ravel_entry. rewrite <- splitAxis_panic. destruct (splitAxis R); cbn; (split; [intros E; (discriminate E || auto)|intros [_ H]; (discriminate H || reflexivity)]).
Qed.
Lemma keys_panic : forall c io L R, enter c io "#" L R = Panic <-> ill io "#" L R.
Proof.
  intros c io L R. rewrite enter_is.
  assert (HH : handlesOf (registered c io) "#" = [mkH "#" "dict" (Dyadic None) free; mkH "#" "keys" (Monadic None) keys_entry]) by (destruct io; handles; reflexivity).
  rewrite HH. clear HH.
  assert (IL : ill io "#" L R <-> L = None /\ blank_axis R) by (split; [intros H; inv_ill H; auto|intros [-> H]; apply ill_keys_axis; exact H]).
  rewrite IL. clear IL. rewrite !enterOf_cons. destruct L as [l|]; cbn; [split; [discriminate|intros [H _]; discriminate H]|].
  unfold keys_entry. rewrite <- splitAxis_panic. destruct (splitAxis R); cbn; (split; [intros E; (discriminate E || auto)|intros [_ H]; (discriminate H || reflexivity)]).
Qed.

Lemma takedrop_ints : forall d xs R, takedrop_entry (Some (Arr AInt d xs)) R = Panic <-> blank_axis R.
Proof. intros d xs R. unfold takedrop_entry. cbn. rewrite <- splitAxis_panic. destruct (splitAxis R); cbn; split; congruence. Qed.
Lemma blank_indices : forall l, blank l -> indices l.
Proof. intros l H. inversion H. apply indices_array. constructor. Qed.

Lemma take_panic : forall c io L R, enter c io "↑" L R = Panic <-> ill io "↑" L R.
Proof.
  intros c io L R. rewrite enter_is.
  assert (HH : handlesOf (registered c io) "↑" = [mkH "↑" "takeChannel1" (Monadic (Some (IsChannel None))) (needR isChannel);
    mkH "↑" "takeChannel2" (Dyadic (Some (Split (Some (ToIndexArray None)) (Some (IsChannel None))))) takeChannel2_entry;
    mkH "↑" "take" (Dyadic (Some (Split (Some (ToIndexArray None)) None))) takedrop_entry]) by (destruct io; handles; reflexivity).
  rewrite HH. clear HH.
  assert (IL : ill io "↑" L R <-> exists l, L = Some l /\ ((indices l /\ ~ blank l /\ blank_axis R) \/ (blank l /\ R = Chan))).
  { split; [intros H; inv_ill H; eauto 8|intros (l & -> & [(A & B & C)|(A & ->)]); [apply ill_take_axis; auto; left; reflexivity|apply ill_take_channel; exact A]]. }
  rewrite IL. clear IL. rewrite !enterOf_cons. cbn [hdom hentry]. destruct L as [l|].
  2:{ split; [|intros (l & H & _); discriminate H]. cbn [Monadic Dyadic obind]. destruct R; discriminate. }
  cbn [Monadic obind]. unfold Dyadic, Split. destruct (ToIndexArray_answer l) as [NI|B IA|d xs IA NB]; cbn [obind snd fst negb].
  - split; [discriminate|]. intros (l' & E & [(A & _)|(A & _)]); injection E as <-; [contradiction|]. exfalso. apply NI, blank_indices, A.
  - assert (D : R = Chan \/ isChannel R = false) by (destruct R; (left; reflexivity) || (right; reflexivity)). destruct D as [->|D].
    + cbn. split; [|reflexivity]. intros _. exists l. auto.
    + unfold IsChannel, test. rewrite D. cbn [obind snd negb]. cbn. split; [discriminate|]. intros (l' & E & [(_ & A & _)|(_ & ->)]); injection E as <-; [contradiction|discriminate D].
  - assert (D : R = Chan \/ isChannel R = false) by (destruct R; (left; reflexivity) || (right; reflexivity)). destruct D as [->|D].
    + cbn. split; [discriminate|]. intros (l' & E & [(_ & _ & A)|(A & _)]); injection E as <-; [inversion A|contradiction].
    + unfold IsChannel, test. rewrite D. cbn [obind snd negb]. pose proof (takedrop_ints d xs R) as T. destruct (takedrop_entry (Some (Arr AInt d xs)) R); cbn [obind].
      * split; [discriminate|]. intros (l' & E & [(_ & _ & A)|(A & _)]); injection E as <-; [apply T in A; discriminate A|contradiction].
      * split; [discriminate|]. intros (l' & E & [(_ & _ & A)|(A & _)]); injection E as <-; [apply T in A; discriminate A|contradiction].
      * split; [|reflexivity]. intros _. exists l. split; [reflexivity|]. left. repeat split; auto. apply T. reflexivity.
Qed.

Lemma drop_panic : forall c io L R, enter c io "↓" L R = Panic <-> ill io "↓" L R.
Proof.
  intros c io L R. rewrite enter_is.
  assert (HH : handlesOf (registered c io) "↓" = [mkH "↓" "cut" (Dyadic (Some (Split (Some (ToIndexArray None)) (Some (IsList None))))) cut_entry;
    mkH "↓" "closeChannel" (Monadic (Some (IsChannel None))) (needR isChannel);
    mkH "↓" "sendChannel" (Dyadic (Some (Split (Some (IsChannel None)) None))) (fun L R => must (lv L isChannel));
    mkH "↓" "drop" (Dyadic (Some (Split (Some (ToIndexArray None)) None))) takedrop_entry]) by (destruct io; handles; reflexivity).
  rewrite HH. clear HH.
  assert (IL : ill io "↓" L R <-> exists l, L = Some l /\ ((indices l /\ ~ blank l /\ blank_axis R) \/ (blank l /\ isKind AList R = true))).
  { split.
    - intros H. inv_ill H; eauto 8.
    - intros (l & -> & [(A & B & C)|(A & B)]); [apply ill_take_axis; auto; right; left; reflexivity|]. apply isKind_iff in B. destruct B as (d & xs & ->). apply ill_cut. exact A. }
  rewrite IL. clear IL. rewrite !enterOf_cons. cbn [hdom hentry]. destruct L as [l|].
  2:{ split; [|intros (l & H & _); discriminate H]. cbn [Monadic Dyadic obind]. destruct R; discriminate. }
  cbn [Monadic obind]. unfold Dyadic, Split. destruct (ToIndexArray_answer l) as [NI|B IA|d xs IA NB]; cbn [obind snd fst negb].
  - split; [|intros (l' & E & [(A & _)|(A & _)]); injection E as <-; [contradiction|]; exfalso; apply NI, blank_indices, A].
    unfold IsChannel, test. destruct (isChannel l) eqn:EC; cbn; [|discriminate]. rewrite EC. discriminate.
  - unfold IsList, test. destruct (isKind AList R) eqn:EL.
    + cbn. split; [|reflexivity]. intros _. exists l. auto.
    + cbn [obind snd negb]. unfold IsChannel, test. assert (NC : isChannel l = false) by (inversion B; reflexivity). rewrite NC. cbn. split; [discriminate|].
      intros (l' & E & [(_ & A & _)|(_ & H)]); injection E as <-; [contradiction|discriminate H].
  - unfold IsList, test. destruct (isKind AList R) eqn:EL.
    + cbn [propagate obind snd fst negb]. unfold cut_entry, needBoth, lv. rewrite EL. cbn. split; [discriminate|]. intros (l' & E & [(_ & _ & A)|(A & _)]); injection E as <-; [inversion A; subst; discriminate EL|contradiction].
    + cbn [obind snd negb]. unfold IsChannel, test. assert (NC : isChannel l = false).
      { inversion IA as [v z H| |]; subst; [inversion H|..]; reflexivity. }
      rewrite NC. cbn [obind snd negb]. pose proof (takedrop_ints d xs R) as T. destruct (takedrop_entry (Some (Arr AInt d xs)) R); cbn [obind].
      * split; [discriminate|]. intros (l' & E & [(_ & _ & A)|(A & _)]); injection E as <-; [apply T in A; discriminate A|contradiction].
      * split; [discriminate|]. intros (l' & E & [(_ & _ & A)|(A & _)]); injection E as <-; [apply T in A; discriminate A|contradiction].
      * split; [|reflexivity]. intros _. exists l. split; [reflexivity|]. left. repeat split; auto. apply T. reflexivity.
Qed.

Lemma transpose_panic : forall c io L R, enter c io "⍉" L R = Panic <-> ill io "⍉" L R.
Proof.
  intros c io L R. rewrite enter_is.
  assert (HH : handlesOf (registered c io) "⍉" = [
      mkH "⍉" "transpose2" (Dyadic (Some (Split (Some (ToIndexArray None)) (Some (IsArray None))))) transpose_entry;
      mkH "⍉" "transposeScalar" (Dyadic (Some (Split (Some (IsArray None)) (Some (IsNumber None))))) transpose_entry;
      mkH "⍉" "transposeTable" (Monadic (Some (IsTable None))) (needR isTable);
      mkH "⍉" "transposeObject" (Monadic (Some (IsObject None))) (needR isObject);
      mkH "⍉" "transpose1" (Monadic (Some (IsArray None))) transpose_entry]) by (destruct io; handles; reflexivity).
  rewrite HH. clear HH.
  assert (IL : ill io "⍉" L R <-> exists k d xs, L = Some (Arr k d xs) /\ k <> AEmpty /\ isNumber R = true).
  { split; [intros H; inv_ill H; eexists _, _, _; rewrite isNumber_iff; eauto|intros (k & d & xs & -> & A & B); apply ill_transpose; [exact A|apply isNumber_iff; exact B]]. }
  rewrite IL. clear IL. rewrite !enterOf_cons. cbn [hdom hentry]. destruct L as [l|].
  2:{ split; [|intros (k & d & xs & H & _); discriminate H]. cbn [Monadic Dyadic obind]. destruct R; discriminate. }
  cbn [Monadic obind]. unfold Dyadic, Split.
  assert (T1 : forall v, IsArray None v = Ok (v, isArray v)) by (intros v; unfold IsArray, arrayTo; destruct (isArray v); reflexivity).
  assert (T2 : forall v, IsNumber None v = Ok (v, isNumber v)) by (intros v; unfold IsNumber, test; destruct (isNumber v); reflexivity).
  rewrite !T1, !T2. destruct (isNumber R) eqn:ER.
  - assert (AR : isArray R = false) by (destruct R; (reflexivity || discriminate ER)). rewrite AR.
    assert (X : (let* a := ToIndexArray None l in if negb (snd a) then Ok (Some l, R, false) else let* b := Ok (R, false) in if negb (snd b) then Ok (Some l, R, false) else Ok (Some (fst a), fst b, true)) = Ok (Some l, R, false)).
    { destruct (ToIndexArray_answer l); reflexivity. }
    rewrite X. cbn [obind snd fst negb]. destruct (isArray l) eqn:AL; cbn [obind snd fst negb].
    + destruct l as [| |k d xs| | | | | | | |]; try discriminate AL. unfold transpose_entry, lv. rewrite AR.
      destruct (kind_dec k AEmpty) as [->|NE].
      * cbn. split; [discriminate|]. intros (k & d' & xs' & E & NK & _). congruence.
      * cbn [isKind]. replace (akind_eqb AEmpty k) with false by (destruct k; (reflexivity || congruence)). cbn [must obind]. split; [|reflexivity]. intros _. exists k, d, xs. auto.
    + split; [discriminate|]. intros (k & d & xs & E & _). injection E as ->. discriminate AL.
  - split; [|intros (k & d & xs & _ & _ & H); discriminate H]. intros H. exfalso. revert H.
    destruct (ToIndexArray_answer l) as [NI|B IA|d xs IA NB]; cbn [obind snd fst negb].
    + destruct (isArray l); discriminate.
    + destruct (isArray R) eqn:AR; cbn [obind snd fst negb]; [cbn; rewrite AR; discriminate|]. destruct (isArray l); discriminate.
    + destruct (isArray R) eqn:AR; cbn [obind snd fst negb]; [cbn; rewrite AR; discriminate|]. destruct (isArray l); discriminate.
Qed.

Lemma where_panic : forall c io L R, enter c io "⍸" L R = Panic <-> ill io "⍸" L R.
Proof.
  intros c io L R. rewrite enter_is.
  assert (HH : handlesOf (registered c io) "⍸" = [mkH "⍸" "intervalindex" (Dyadic (Some (Split (Some (IsVector None)) (Some (IsArray None))))) intervalindex_entry;
     mkH "⍸" "where" (Monadic (Some (ToBoolArray None))) (needR (isKind ABool))]) by (destruct io; handles; reflexivity).
  rewrite HH. clear HH.
  assert (IL : ill io "⍸" L R <-> L = None /\ exists k d, R = Arr k d [] /\ k <> ABool /\ k <> AInt).
  { split; [intros H; inv_ill H; split; [reflexivity|]; eauto|intros (-> & k & d & -> & A & B); apply ill_where; auto]. }
  rewrite IL. clear IL. rewrite enterOf_safe by (eapply safe_S; [apply IsVector_sound|apply IsArray_sound|intros l r A B; unfold intervalindex_entry, lv; rewrite A, B; destruct (isKind AEmpty l); discriminate]).
  rewrite enterOf_cons. cbn [hdom hentry]. destruct L as [l|]; [split; [intros (_ & _ & H); discriminate H|intros [H _]; discriminate H]|].
  cbn [Dyadic Monadic]. unfold ToBoolArray. destruct (isKind ABool R) eqn:EB.
  - cbn [propagate obind snd fst]. unfold needR. rewrite EB. cbn [must obind]. split; [intros (_ & _ & H); discriminate H|]. intros (_ & k & d & -> & A & _). destruct k; try discriminate EB. congruence.
  - destruct (ToIndexArray_answer R) as [NI|B IA|d xs IA NB]; cbn [obind snd fst negb].
    + split; [intros (_ & _ & H); discriminate H|]. intros (_ & k & d & -> & _). exfalso. apply NI. apply indices_array. constructor.
    + cbn. split; [|intros _; repeat split; discriminate]. intros _. split; [reflexivity|]. inversion B as [k d NK E]; subst. exists k, d. repeat split; auto. intros ->. discriminate EB.
    + split.
      * intros (_ & _ & H). match type of H with context [if ?b then _ else _] => destruct b end; discriminate H.
      * intros (_ & k & d' & -> & _ & NK). exfalso. apply NB. constructor. exact NK.
Qed.

Lemma table_panic : forall c io L R, enter c io "⍪" L R = Panic <-> ill io "⍪" L R.
Proof.
  intros c io L R. rewrite enter_is.
  assert (HH : handlesOf (registered c io) "⍪" = [mkH "⍪" "table" (Monadic None) table_entry; mkH "⍪" "catenateFirst" (Dyadic None) free]) by (destruct io; handles; reflexivity).
  rewrite HH. clear HH.
  assert (IL : ill io "⍪" L R <-> L = None /\ exists k xs, R = Arr k [] xs).
  { split; [intros H; inv_ill H; eauto|intros (-> & k & xs & ->); apply ill_table]. }
  rewrite IL. clear IL. rewrite !enterOf_cons. cbn [hdom hentry]. destruct L as [l|]; [cbn; split; [discriminate|intros [H _]; discriminate H]|].
  cbn [Monadic obind]. unfold table_entry. destruct R as [| |k [|z d] xs| | | | | | | |]; cbn; split; try discriminate; try (intros (_ & k' & xs' & H); discriminate H); eauto.
Qed.

Lemma symbols_split : forall s, In s symbols -> In s goodSymbols \/ In s illSymbols.
Proof.
  intros s I. assert (A : forallb (fun t => existsb (String.eqb t) goodSymbols || existsb (String.eqb t) illSymbols) symbols = true) by reflexivity.
  rewrite forallb_forall in A. specialize (A s I). apply orb_true_iff in A. destruct A as [A|A]; [left|right]; apply existsb_exists in A; destruct A as (t & It & E); apply String.eqb_eq in E; rewrite E; exact It.
Qed.

Lemma enter_panic : forall c io sym L R, enter c io sym L R = Panic <-> ill io sym L R.
Proof.
  intros c io sym L R. destruct (in_dec string_dec sym symbols) as [I|N].
  - destruct (symbols_split sym I) as [G|B].
    + split; [|intros H; exfalso; exact (good_not_ill _ _ _ _ G H)]. rewrite enter_is. intros H. exfalso. exact (safe_enter _ _ _ (good_safe c io sym G) H).
    + unfold illSymbols in B. apply in_app_or in B. destruct B as [B|B]; [apply elementary_panic; exact B|]. apply in_app_or in B. destruct B as [B|B]; [apply boolean_panic; exact B|].
      cbn [In] in B.
      destruct B as [<-|B]; [apply not_panic|]. destruct B as [<-|B]; [apply rotate_panic; left; reflexivity|]. destruct B as [<-|B]; [apply rotate_panic; right; left; reflexivity|].
      destruct B as [<-|B]; [apply ravel_panic|]. destruct B as [<-|B]; [apply keys_panic|]. destruct B as [<-|B]; [apply take_panic|]. destruct B as [<-|B]; [apply drop_panic|].
      destruct B as [<-|B]; [apply transpose_panic|]. destruct B as [<-|B]; [apply where_panic|]. destruct B as [<-|B]; [apply table_panic|]. destruct B.
  - split.
    + rewrite enter_is, (unknown_symbol c io sym N). discriminate.
    + intros H. exfalso. apply N. apply ill_symbol in H. clear - H.
      assert (A : forallb (fun t => existsb (String.eqb t) symbols) illSymbols = true) by reflexivity.
      rewrite forallb_forall in A. specialize (A sym H). apply existsb_exists in A; destruct A as (t & It & E); apply String.eqb_eq in E; rewrite E; exact It.
Qed.

(* operators *)
Definition opSymbols : list string := ["←"; "@"; "⍂"; "⍨"; "."; "¨"; "∘"; "⍣"; "⍤"; "/"; "⌿"; "\"; "⍀"; "⌺"]%string.
Lemma fold_operators : forall hs sym acc, fold_left (fun acc h => if String.eqb (osym h) sym then h :: acc else acc) hs acc = rev (filter (fun h => String.eqb (osym h) sym) hs) ++ acc.
Proof.
  induction hs as [|h hs IH]; intros sym acc; [reflexivity|]. cbn [fold_left filter]. rewrite IH. destruct (String.eqb (osym h) sym); cbn [rev]; [rewrite <- app_assoc; reflexivity|reflexivity].
Qed.
Lemma unknown_operator : forall sym, ~ In sym opSymbols -> operatorsOf sym = [].
Proof.
  intros sym N. unfold operatorsOf. rewrite fold_operators, app_nil_r.
  assert (F : forall h, In h operators -> In (osym h) opSymbols).
  { intros h I. assert (M : In (osym h) (map osym operators)) by (apply in_map; exact I).
    assert (A : forallb (fun s => existsb (String.eqb s) opSymbols) (map osym operators) = true) by (vm_compute; reflexivity).
    rewrite forallb_forall in A. specialize (A _ M). apply existsb_exists in A. destruct A as (s & Is & Es). apply String.eqb_eq in Es. rewrite Es. exact Is. }
  assert (filter (fun h => String.eqb (osym h) sym) operators = []) as ->; [|reflexivity].
  revert F. generalize operators as hs. induction hs as [|h hs IH]; intros F; [reflexivity|]. cbn [filter].
  destruct (String.eqb (osym h) sym) eqn:E; [|apply IH; intros h' I; apply F; right; exact I].
  apply String.eqb_eq in E. exfalso. apply N. rewrite <- E. apply F. left. reflexivity.
Qed.
Ltac registryOp t := eval cbv beta iota zeta delta [operatorsOf operators fold_left osym String.eqb Ascii.eqb Bool.eqb] in t.
Ltac handlesOp :=
  match goal with |- context [operatorsOf ?s] =>
    let l := registryOp (operatorsOf s) in
    let E := fresh "E" in
    assert (E : operatorsOf s = l) by reflexivity; rewrite E; clear E
  end.
Definition enterOps (hs : list ohandler) (LO : value) (RO : option value) (L : option value) (R : value) : outcome string :=
  let* p := firstOp hs LO RO in let '(h, l, x) := p in let* _ := oentry_ h l x L R in Ok (oname h).
Lemma enterOps_cons : forall h hs LO RO L R, enterOps (h :: hs) LO RO L R =
  (let* r := odomain h LO RO in match r with (l, x, true) => let* _ := oentry_ h l x L R in Ok (oname h) | (_, _, false) => enterOps hs LO RO L R end).
Proof. intros. unfold enterOps. cbn [firstOp]. destruct (odomain h LO RO) as [[[l x] []]| |]; reflexivity. Qed.
Lemma enterOps_nil : forall LO RO L R, enterOps [] LO RO L R <> Panic.
Proof. discriminate. Qed.
Lemma isFun_cases : forall v, (exists f, v = Fun f) \/ isFunction v = false.
Proof. intros v. destruct v; eauto. Qed.
Lemma blank_fun : forall f, ~ indices (Fun f).
Proof. intros f H. inversion H as [v z Hz| |]. inversion Hz. Qed.

Lemma replicate_panic : forall sym LO RO L R, In sym ["/"; "⌿"]%string -> enterOp sym LO RO L R = Panic <-> ill_op sym LO RO L R.
Proof.
  intros sym LO RO L R I. change (enterOp sym LO RO L R) with (enterOps (operatorsOf sym) LO RO L R).
  assert (HH : exists n1 n2, operatorsOf sym = [mkO sym n1 (MonadicOp (Some (ToIndexArray None))) oReplicate; mkO sym n2 (MonadicOp (Some (Function None))) oFunction]).
  { cbn [In] in I. repeat (destruct I as [<-|I]; [handlesOp; eexists; eexists; reflexivity|]); destruct I. }
  destruct HH as (n1 & n2 & ->).
  assert (IL : ill_op sym LO RO L R <-> L = None /\ blank LO).
  { split; [intros H; destruct H; [auto|cbn [In] in I; repeat (destruct I as [I|I]; [discriminate I|]); destruct I..]|intros [-> B]; apply ill_replicate; auto]. }
  rewrite IL. clear IL. rewrite !enterOps_cons. cbn [odomain oentry_ MonadicOp]. destruct (ToIndexArray_answer LO) as [NI|B IA|d xs IA NB]; cbn [obind snd fst].
  - split.
    + unfold Function, test. destruct (isFunction LO) eqn:EF; cbn [propagate obind snd fst]; [unfold oFunction; rewrite EF|]; discriminate.
    + intros [_ B]. exfalso. apply NI, blank_indices, B.
  - destruct L as [l|]; cbn; split; auto; try discriminate. intros [H _]; discriminate H.
  - destruct L as [l|]; cbn; (split; [discriminate|]); intros [H B]; contradiction.
Qed.

Lemma rank_panic : forall LO RO L R, enterOp "⍤" LO RO L R = Panic <-> ill_op "⍤" LO RO L R.
Proof.
  intros LO RO L R. change (enterOp "⍤" LO RO L R) with (enterOps (operatorsOf "⍤") LO RO L R). handlesOp.
  assert (IL : ill_op "⍤" LO RO L R <-> isFunction LO = true /\ exists g, RO = Some g /\ blank g).
  { split; [intros H; inversion H; subst; [junk|eauto]|]. intros (F & g & -> & B). destruct (isFun_cases LO) as [[f ->]|H]; [apply ill_rank; exact B|congruence]. }
  rewrite IL. clear IL. rewrite enterOps_cons. cbn [odomain oentry_ DyadicOp]. destruct RO as [g|]; [|cbn; split; [discriminate|intros (_ & g & H & _); discriminate H]].
  unfold Function, test. destruct (isFunction LO) eqn:EF; cbn [propagate obind snd fst negb]; [|split; [discriminate|intros (H & _); discriminate H]].
  destruct (ToIndexArray_answer g) as [NI|B IA|d xs IA NB]; cbn [obind snd fst negb].
  - split; [discriminate|]. intros (_ & g' & E & B). injection E as <-. exfalso. apply NI, blank_indices, B.
  - unfold oRank. rewrite EF. cbn. split; [|reflexivity]. eauto.
  - unfold oRank. rewrite EF. cbn. split; [discriminate|]. intros (_ & g' & E & B). injection E as <-. contradiction.
Qed.
Lemma at_panic : forall LO RO L R, enterOp "@" LO RO L R = Panic <-> ill_op "@" LO RO L R.
Proof.
  intros LO RO L R. change (enterOp "@" LO RO L R) with (enterOps (operatorsOf "@") LO RO L R). handlesOp.
  assert (IL : ill_op "@" LO RO L R <-> exists g, RO = Some g /\ blank g) by (split; [intros H; inversion H; subst; [junk|eauto]|intros (g & -> & B); apply ill_at; exact B]).
  rewrite IL. clear IL. rewrite enterOps_cons. cbn [odomain oentry_ DyadicOp obind oAt]. destruct RO as [g|]; [|split; [discriminate|intros (g & H & _); discriminate H]].
  unfold oAt. destruct (isFun_cases g) as [[f ->]|NF]; [cbn; split; [discriminate|intros (g & E & B); injection E as <-; inversion B]|].
  replace (match g with Fun _ => Ok tt | _ => let* v := ToIndexArray None (if isArray g then g else Arr AMixed [1] [g]) in if negb (snd v) then Err else must (isKind AInt (fst v)) end)
    with (let* v := ToIndexArray None (if isArray g then g else Arr AMixed [1] [g]) in if negb (snd v) then Err else must (isKind AInt (fst v))) by (destruct g; (reflexivity || discriminate NF)).
  destruct (isArray g) eqn:AG.
  - destruct (ToIndexArray_answer g) as [NI|B IA|d xs IA NB]; cbn [obind snd fst negb].
    + split; [discriminate|]. intros (g' & E & B). injection E as <-. exfalso. apply NI, blank_indices, B.
    + cbn. split; [|reflexivity]. eauto.
    + cbn. split; [discriminate|]. intros (g' & E & B). injection E as <-. contradiction.
  - split; [|intros (g' & E & B); injection E as <-; inversion B; subst; discriminate AG].
    destruct (ToIndexArray_answer (Arr AMixed [1] [g])) as [NI|B IA|d xs IA NB]; cbn; try discriminate. inversion B.
Qed.

Lemma enterOp_panic : forall sym LO RO L R, enterOp sym LO RO L R = Panic <-> ill_op sym LO RO L R.
Proof.
  intros sym LO RO L R. destruct (in_dec string_dec sym ["/"; "⌿"]%string) as [I|N1]; [apply replicate_panic; exact I|].
  destruct (string_dec sym "⍤") as [->|N2]; [apply rank_panic|]. destruct (string_dec sym "@") as [->|N3]; [apply at_panic|].
  split; [|intros H; exfalso; inversion H; subst; congruence || contradiction].
  intros H. exfalso. revert H. change (enterOp sym LO RO L R) with (enterOps (operatorsOf sym) LO RO L R).
  destruct (in_dec string_dec sym opSymbols) as [I|N]; [|rewrite (unknown_operator sym N); discriminate].
  assert (F : forall v, Function None v = Ok (v, isFunction v)) by (intros v; unfold Function, test; destruct (isFunction v); reflexivity).
  assert (P : forall s v, exists b, IsPrimitive s v = Ok (v, b) /\ (b = true -> isFunction v = true)).
  { intros s v. unfold IsPrimitive, test. destruct v; try (eexists; split; [reflexivity|discriminate]). destruct (match f with Prim s0 => String.eqb s0 s | NonPrim _ => false end); eexists; split; reflexivity. }
  cbn [In opSymbols] in I.
  destruct I as [<-|I]; [handlesOp; discriminate|]. destruct I as [<-|I]; [congruence|]. destruct I as [<-|I]; [handlesOp; discriminate|].
  destruct I as [<-|I].
  { handlesOp. rewrite enterOps_cons. cbn [odomain oentry_ MonadicOp]. rewrite F. cbn [obind snd fst]. destruct (isFunction LO) eqn:E; [unfold oFunction|]; cbn; rewrite ?E; try discriminate; destruct LO; discriminate. }
  destruct I as [<-|I].
  { handlesOp. rewrite !enterOps_cons. cbn [odomain oentry_ DyadicOp]. destruct RO as [g|]; [|discriminate]. destruct (P "+"%string LO) as (b1 & -> & B1). destruct (P "×"%string g) as (b2 & -> & B2). cbn [obind snd fst negb].
    rewrite !F. cbn [obind snd fst negb].
    destruct b1; cbn [negb].
    - destruct b2; cbn [negb obind snd fst].
      + cbn [obind]. unfold oBothFunctions, lv. cbv beta iota. rewrite B1, B2 by reflexivity. discriminate.
      + rewrite B1 by reflexivity. cbn [negb]. destruct (isFunction g) eqn:EG; cbn [negb obind]; [unfold oBothFunctions, lv; cbv beta iota; rewrite B1, EG by reflexivity|]; discriminate.
    - destruct (isFunction LO) eqn:EF; cbn [negb]; [|discriminate]. destruct (isFunction g) eqn:EG; cbn [negb obind]; [unfold oBothFunctions, lv; cbv beta iota; rewrite EF, EG|]; discriminate. }
  destruct I as [<-|I].
  { handlesOp. rewrite !enterOps_cons. cbn [odomain oentry_ MonadicOp]. destruct (P "<"%string LO) as (b1 & -> & B1). rewrite F. cbn [obind snd fst]. destruct b1; [discriminate|].
    destruct (isFunction LO) eqn:E; cbn [obind negb snd fst]; [unfold oFunction; cbv beta iota; rewrite E|]; discriminate. }
  destruct I as [<-|I]; [handlesOp; destruct RO; discriminate|].
  destruct I as [<-|I].
  { handlesOp. rewrite enterOps_cons. cbn [odomain oentry_ DyadicOp]. destruct RO as [g|]; [|discriminate]. rewrite F. cbn [obind snd fst]. destruct (isFunction LO) eqn:E; cbn [obind negb snd fst]; [unfold oFunction; cbv beta iota; rewrite E|]; discriminate. }
  destruct I as [<-|I]; [congruence|]. destruct I as [<-|I]; [exfalso; apply N1; cbn; auto|]. destruct I as [<-|I]; [exfalso; apply N1; cbn; auto|].
  assert (X : forall n1 n2 s, enterOps [mkO s n1 (MonadicOp (Some (ToIndexArray None))) oExpand; mkO s n2 (MonadicOp (Some (Function None))) oFunction] LO RO L R <> Panic).
  { intros n1 n2 s. rewrite !enterOps_cons. cbn [odomain oentry_ MonadicOp]. rewrite F. destruct (ToIndexArray_answer LO) as [NI|B IA|d xs IA NB]; cbn [obind snd fst].
    - destruct (isFunction LO) eqn:E; cbn [obind negb snd fst]; [unfold oFunction; cbv beta iota; rewrite E|]; discriminate.
    - destruct L; discriminate.
    - destruct L; discriminate. }
  destruct I as [<-|I]; [handlesOp; apply X|]. destruct I as [<-|I]; [handlesOp; apply X|].
  destruct I as [<-|I]; [|destruct I].
  handlesOp. rewrite enterOps_cons. cbn [odomain oentry_ DyadicOp]. destruct RO as [g|]; [|discriminate]. rewrite F. cbn [obind snd fst]. destruct (isFunction LO) eqn:E; cbn [negb]; [|discriminate].
  destruct (ToIndexArray_answer g) as [NI|B IA|d xs IA NB]; cbn [obind snd fst negb]; [discriminate| |]; unfold oStencil; cbv beta iota; rewrite E; destruct L; discriminate.
Qed.
