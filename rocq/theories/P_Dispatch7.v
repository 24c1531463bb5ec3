(* Which function serves the arguments, and what the conversions give. *)
From Coq Require Import String List ZArith Bool Lia.
From Verif Require Import Base M_Array P_Array M_Dispatch S_Dispatch P_Dispatch P_Dispatch2 P_Dispatch3 P_Dispatch4 P_Dispatch5.
Import ListNotations.
Open Scope Z_scope.

Lemma toIdxs_F2 : forall xs l, toIdxs xs = Some l -> Forall2 index_of xs l.
Proof.
  induction xs as [|x xs IH]; intros l E; cbn in E; [injection E as <-; constructor|].
  destruct (toIdx x) as [i|] eqn:EX; [|discriminate]. destruct (toIdxs xs) as [r|]; [|discriminate]. injection E as <-. constructor; [|auto].
  destruct x; try discriminate. cbn in EX. subst. constructor.
Qed.
Lemma ToIndexArray_gives : forall V v, ToIndexArray None V = Ok (v, true) -> as_integers V v.
Proof.
  intros V v E. destruct V as [t i|s|k d xs| | |t| |f|n|A R|t]; try discriminate E.
  - cbn in E. destruct i as [z|]; [|discriminate E]. injection E as <-. apply as_integers_scalar. constructor.
  - destruct (kind_dec k AInt) as [->|NK]; [injection E as <-; constructor|].
    assert (TT : ToIndexArray None (Arr k d xs) = if zlen xs =? 0 then Ok (emptyArray, true) else match toIdxs xs with Some l => Ok (Arr AInt d (map intOf l), true) | None => Ok (Arr k d xs, false) end) by (destruct k; (reflexivity || congruence)).
    rewrite TT in E. clear TT. destruct xs as [|x xs].
    + injection E as <-. apply as_integers_none. constructor. exact NK.
    + replace (zlen (x :: xs) =? 0) with false in E by (unfold zlen; cbn [List.length]; lia).
      destruct (toIdxs (x :: xs)) as [l|] eqn:EL; [|discriminate E]. injection E as <-. apply as_integers_array; [exact NK|discriminate|apply toIdxs_F2; exact EL].
Qed.
Lemma ToIndexArray_accepts : forall V, (exists v, ToIndexArray None V = Ok (v, true)) <-> indices V.
Proof.
  intros V. destruct (ToIndexArray_answer V) as [NI|B IA|d xs IA NB]; split; intros H; eauto; try contradiction. destruct H as [v H]. discriminate H.
Qed.
Lemma ToArray_gives : forall c V, exists v, ToArray c None V = Ok (v, true) /\ as_array V v.
Proof.
  intros c V. unfold ToArray, arrayTo. destruct (isArray V) eqn:E; cbn [propagate].
  - destruct V; try discriminate E. eexists. split; [reflexivity|constructor].
  - eexists. split; [reflexivity|]. apply as_array_one. apply not_array. exact E.
Qed.
Lemma ToVector_gives : forall c V v, ToVector c None V = Ok (v, true) -> as_vector V v.
Proof.
  intros c V v E. unfold ToVector, vectorTo in E. destruct V as [t i|s|k d xs| | |t| |f|n|A R|t]; cbn [propagate] in E;
    try (injection E as <-; apply as_vector_one; intros H; inversion H; fail).
  destruct (zlen d =? 1) eqn:ED.
  - injection E as <-. destruct d as [|n [|m d]]; try (unfold zlen in ED; cbn [List.length] in ED; lia). constructor.
  - assert (ND : length d <> 1%nat) by (unfold zlen in ED; lia). cbn [negb] in E. destruct (zlen xs =? 0) eqn:EX.
    + injection E as <-. destruct xs; [|unfold zlen in EX; cbn [List.length] in EX; lia]. apply as_vector_none. exact ND.
    + destruct (maxdim d =? zlen xs); [|discriminate E]. injection E as <-. apply as_vector_ravel; [exact ND|]. intros ->. discriminate EX.
Qed.

(* the longest axis has as many elements as the array: all other axes have one *)
Lemma maxdim_from : forall d m, fold_left (fun m n => if n >? m then n else m) d m = Z.max m (fold_left (fun m n => if n >? m then n else m) d m).
Proof.
  induction d as [|n d IH]; intros m; cbn [fold_left]; [lia|]. rewrite (IH (if n >? m then n else m)). destruct (n >? m) eqn:E; lia.
Qed.
Lemma maxdim_in : forall d m, In (fold_left (fun m n => if n >? m then n else m) d m) (m :: d).
Proof.
  induction d as [|n d IH]; intros m; cbn [fold_left]; [left; reflexivity|]. destruct (IH (if n >? m then n else m)) as [E|I]; [|right; right; exact I].
  rewrite <- E. destruct (n >? m); [right; left; reflexivity|left; reflexivity].
Qed.
Lemma maxdim_ge : forall d m n, In n (m :: d) -> n <= fold_left (fun m n => if n >? m then n else m) d m.
Proof.
  induction d as [|x d IH]; intros m n I; cbn [fold_left].
  - destruct I as [->|[]]. lia.
  - destruct I as [->|[->|I]].
    + rewrite maxdim_from. destruct (x >? n) eqn:E; lia.
    + rewrite maxdim_from. destruct (n >? m) eqn:E; lia.
    + apply IH. right. exact I.
Qed.
Fixpoint prodz (d : list Z) : Z := match d with [] => 1 | n :: r => n * prodz r end.
Lemma prodz_pos : forall d, Forall (fun n => 1 <= n) d -> 1 <= prodz d.
Proof. induction 1; cbn; [lia|]. nia. Qed.
Lemma prodz_app : forall a b, prodz (a ++ b) = prodz a * prodz b.
Proof. induction a as [|n a IH]; intros b; cbn [app prodz]; [lia|]. rewrite IH. lia. Qed.
Lemma prodz_one : forall d, Forall (fun n => 1 <= n) d -> prodz d = 1 -> Forall (eq 1) d.
Proof.
  induction 1 as [|n d H F IH]; intros E; [constructor|]. cbn in E. pose proof (prodz_pos d F). assert (n = 1) by nia. subst. constructor; [reflexivity|]. apply IH. lia.
Qed.
Lemma prodz_ones : forall d, Forall (eq 1) d -> prodz d = 1.
Proof. induction 1 as [|n d H F IH]; cbn; [reflexivity|]. rewrite <- H, IH. reflexivity. Qed.
Lemma Prod_prodz : forall d, d <> [] -> Prod d = prodz d.
Proof.
  intros d N. destruct d as [|n d]; [congruence|]. clear N. unfold Prod. assert (G : forall l a, fold_left Z.mul l a = a * prodz l).
  { induction l as [|x l IH]; intros a; cbn [fold_left prodz]; [lia|]. rewrite IH. lia. }
  rewrite G. reflexivity.
Qed.
Lemma maxdim_one : forall d, d <> [] -> Forall (fun n => 1 <= n) d -> maxdim d = prodz d <-> one_long_axis d.
Proof.
  intros d ND F. unfold maxdim. split.
  - intros E. destruct (maxdim_in d 0) as [Z0|I].
    + destruct d as [|n d]; [congruence|]. pose proof (maxdim_ge (n :: d) 0 n (or_intror (or_introl eq_refl))). inversion F; subst. lia.
    + set (m := fold_left (fun m n => if n >? m then n else m) d 0) in *. apply in_split in I. destruct I as (pre & post & E2). exists pre, m, post. split; [exact E2|].
      clearbody m. subst d. rewrite prodz_app in E. cbn [prodz] in E.
      apply Forall_app in F. destruct F as [F1 F2]. inversion F2 as [|a b F3 F4]; subst. pose proof (prodz_pos _ F1). pose proof (prodz_pos _ F4).
      assert (P : prodz pre * prodz post = 1) by nia. split; apply prodz_one; auto; nia.
  - intros (pre & n & post & -> & A & B). rewrite prodz_app. cbn [prodz]. rewrite (prodz_ones _ A), (prodz_ones _ B).
    apply Forall_app in F. destruct F as [F1 F2]. inversion F2 as [|a b F3 F4]; subst.
    set (m := fold_left (fun m n => if n >? m then n else m) (pre ++ n :: post) 0).
    assert (G : n <= m) by (apply maxdim_ge; right; apply in_or_app; right; left; reflexivity).
    assert (I : In m (0 :: pre ++ n :: post)) by apply maxdim_in. destruct I as [I|I]; [lia|]. apply in_app_or in I. destruct I as [I|[I|I]]; [|lia|].
    + rewrite Forall_forall in A. specialize (A _ I). lia.
    + rewrite Forall_forall in B. specialize (B _ I). lia.
Qed.
Lemma prodz_nonneg_pos : forall d, Forall (fun n => 0 <= n) d -> 0 < prodz d -> Forall (fun n => 1 <= n) d.
Proof. induction 1 as [|n d H F IH]; intros E; [constructor|]. cbn in E. assert (0 < prodz d) by nia. constructor; [nia|auto]. Qed.
Lemma ToVector_accepts : forall c k d xs, proper (Arr k d xs) -> xs <> [] ->
  (exists v, ToVector c None (Arr k d xs) = Ok (v, true)) <-> one_long_axis d.
Proof.
  intros c k d xs (_ & P & NN & _) NX. unfold ToVector, vectorTo.
  assert (LX : 0 < zlen xs) by (destruct xs; [congruence|unfold zlen; cbn [List.length]; lia]).
  assert (ND : d <> []) by (intros ->; rewrite P in LX; unfold Prod in LX; cbn in LX; lia).
  rewrite Prod_prodz in P by exact ND. rewrite P in LX.
  destruct (zlen d =? 1) eqn:ED.
  - split; [|intros _; cbn; eauto]. intros _. destruct d as [|n [|m d]]; try (unfold zlen in ED; cbn [List.length] in ED; lia). exists [], n, []. repeat split; constructor.
  - cbn [negb]. replace (zlen xs =? 0) with false by lia. rewrite <- (maxdim_one d ND (prodz_nonneg_pos d NN LX)), P.
    destruct (maxdim d =? prodz d) eqn:EM; cbn [negb].
    + split; [lia|]. intros _. cbn. eauto.
    + split; [intros [v H]; discriminate H|lia].
Qed.

(* one more registered function *)
Lemma registers_same : forall hs h L R, firstOf (handlesOf (registers hs h) (hsym h)) L R =
  (let* r := hdom h L R in match r with (l, x, true) => Ok (h, l, x) | (_, _, false) => firstOf (handlesOf hs (hsym h)) L R end).
Proof.
  intros hs h L R. unfold registers. rewrite !handles_filter, filter_app, rev_app_distr. cbn [filter]. rewrite String.eqb_refl. cbn [rev app firstOf]. reflexivity.
Qed.
Lemma registers_other : forall hs h sym L R, sym <> hsym h -> firstOf (handlesOf (registers hs h) sym) L R = firstOf (handlesOf hs sym) L R.
Proof.
  intros hs h sym L R N. unfold registers. rewrite !handles_filter, filter_app. cbn [filter].
  assert (E : String.eqb (hsym h) sym = false) by (apply String.eqb_neq; congruence). rewrite E, app_nil_r. reflexivity.
Qed.

(* the functions that come before those of every elementary function *)
Definition elsewhere (io : bool) (e : string) (L : option value) (R : value) : Prop :=
  (io = true /\ e = "!"%string /\ command (match L with Some l => l | None => R end)) \/
  (e = "⌊"%string /\ exists s, L = Some (Str s) /\ ((exists i, R = Num NTime i) \/ exists d xs, R = Arr ATime d xs)).
Lemma firstOf_skip : forall h hs L R l x, hdom h L R = Ok (l, x, false) -> firstOf (h :: hs) L R = firstOf hs L R.
Proof. intros h hs L R l x E. cbn [firstOf]. rewrite E. reflexivity. Qed.
Lemma elementary_dispatch : forall c io e L R, In e elementarySymbols -> ~ elsewhere io e L R -> dispatch c io e L R = firstOf (rev (elementaryOf c e)) L R.
Proof.
  intros c io e L R I N. unfold dispatch. rewrite (elementary_handles c io e I).
  destruct (String.eqb e "⌊") eqn:EF.
  { apply String.eqb_eq in EF. subst e. rewrite andb_false_r. cbn [app].
    assert (D : exists l x, hdom (mkH "⌊" "roundTime" (Dyadic (Some (Split (Some (IsString None)) (Some (Or (IsTime None) (IsTimeArray None)))))) roundTime_entry) L R = Ok (l, x, false)).
    { cbn [hdom]. destruct L as [l|]; [|eexists; eexists; reflexivity]. unfold IsString, test. destruct (isString l) eqn:ES; [|eexists; eexists; unfold Dyadic, Split; cbn [obind snd fst negb propagate]; rewrite ES; cbn [obind snd fst negb]; reflexivity].
      destruct l; try discriminate ES. unfold Or, IsTime, IsTimeArray, test. destruct (isNumType NTime R) eqn:ET; cbn [obind snd fst negb propagate].
      - exfalso. apply N. right. split; [reflexivity|]. exists s. split; [reflexivity|]. left. destruct R as [[]| | | | | | | | | |]; try discriminate ET. eauto.
      - destruct (isKind ATime R) eqn:EK; [|eexists; eexists; unfold Dyadic, Split; cbn [isString obind snd fst negb propagate]; rewrite ET; cbn [obind snd fst]; rewrite EK; cbn [obind snd fst negb]; reflexivity]. exfalso. apply N. right. split; [reflexivity|]. exists s. split; [reflexivity|]. right. apply isKind_iff. exact EK. }
    destruct D as (l & x & D). exact (firstOf_skip _ _ _ _ _ _ D). }
  cbn [app]. destruct (io && String.eqb e "!")%bool eqn:EX; [|reflexivity].
  apply andb_true_iff in EX. destruct EX as [-> EX]. apply String.eqb_eq in EX. subst e. cbn [app].
  assert (NC : ~ command (match L with Some l => l | None => R end)) by (intros C; apply N; left; auto).
  assert (T : forall v, ~ command v -> exists w, ToStringArray None v = Ok (w, false)).
  { intros v NV. rewrite <- ToStringArray_command in NV. destruct (ToStringArray_total v) as [T1 T2]. destruct (ToStringArray None v) as [[w []]| |]; try congruence; eauto. exfalso. eauto. }
  destruct (T _ NC) as [w W]. destruct L as [l|].
  - erewrite firstOf_skip; [erewrite firstOf_skip; [reflexivity|cbn [hdom Monadic]; reflexivity]|]. cbn [hdom Dyadic Split]. rewrite W. reflexivity.
  - erewrite firstOf_skip; [erewrite firstOf_skip; [reflexivity|cbn [hdom Monadic]; rewrite W; reflexivity]|]. reflexivity.
Qed.
Lemma served_first : forall c io e L R n l x, In e elementarySymbols -> ~ elsewhere io e L R -> (n < 10)%nat ->
  firstOf (rev (elementaryOf c e)) L R = Ok (El c e n, l, x) ->
  served c io e L R (nth n ["arith1"; "array1"; "table1"; "channel1"; "arith2"; "array2"; "arrayAxis"; "tableAny"; "tableBoth"; "channel2"]%string ""%string) l x.
Proof. intros c io e L R n l x I N B E. exists (El c e n). rewrite (elementary_dispatch c io e L R I N). split; [exact E|apply El_name; exact B]. Qed.
Lemma conform_iff : forall ls rs, sameShape ls rs = true <-> ls = rs /\ ls <> [].
Proof. intros ls rs. unfold sameShape. destruct ls as [|n ls]; [split; [discriminate|intros [_ H]; congruence]|]. destruct (list_eq_dec Z.eq_dec (n :: ls) rs); split; try discriminate; try tauto. intros _. split; [assumption|discriminate]. Qed.
