(* P_Sentence2.v -- the reductions of the parser keep the meaning of a sentence. *)
From Verif Require Import Base M_Scan M_Syntax M_Parse S_Parse P_Parse P_Lines P_Sentence.
From Coq Require Import String List Bool Arith Lia.
Import ListNotations.
Open Scope nat_scope.
Open Scope list_scope.

Section Reductions.
  Context {D : Type}.
  Local Notation expr := (expr D).
  Local Notation func := (func D).
  Local Notation piece := (piece D).
  Local Notation items := (map (@item_of D)).

  (* ---------- sublists ---------- *)
  Definition free (P : list piece -> Prop) (l : list piece) : Prop := forall a m b, l = a ++ m ++ b -> ~ P m.
  Definition jam (m : list piece) : Prop := exists x y z, m = [x; y; z] /\ operand x = true /\ operand y = true /\ operand z = false.
  Definition opend (P : list piece -> Prop) : Prop := forall m, P m -> exists m' o, m = m' ++ [o] /\ operand o = false.
  Lemma awkward_end : opend awkward.
  Proof. intros m H. destruct H; [exists [Mop a; Mop b], (Mop c)|exists [Mop a; x], (Dop b)|exists [Mop a; x; Mop b], y|exists [Dop "⍂"; N a; x], y]; auto. Qed.
  Lemma jam_end : opend jam.
  Proof. intros m (x & y & z & -> & _ & _ & Z). exists [x; y], z. auto. Qed.
  Lemma free_l : forall P a b, free P (a ++ b) -> free P a.
  Proof. intros P a b F u m v E. apply (F u m (v ++ b)). rewrite E, !app_assoc. reflexivity. Qed.
  Lemma free_r : forall P a b, free P (a ++ b) -> free P b.
  Proof. intros P a b F u m v E. apply (F (a ++ u) m v). rewrite E, !app_assoc. reflexivity. Qed.
  Lemma free_end : forall P a b, opend P -> free P a -> forallb operand b = true -> free P (a ++ b).
  Proof.
    intros P a b OP F B u m v E PM. destruct (OP _ PM) as (m' & o & -> & O).
    rewrite app_assoc in E. apply prefix_app in E. destruct E as [[c E]|[c [E E']]].
    - apply (F u (m' ++ [o]) c); [|exact PM]. rewrite E, <- !app_assoc. reflexivity.
    - destruct c as [|x c] using rev_ind.
      + rewrite app_nil_r in E. apply (F u (m' ++ [o]) []); [|exact PM]. rewrite app_nil_r. congruence.
      + clear IHc. rewrite !app_assoc in E. apply app_inj_tail in E. destruct E as [_ E]. subst x b.
        rewrite !forallb_app in B. cbn in B. rewrite O in B. rewrite !andb_false_r in B. discriminate.
  Qed.
  Lemma jam_cons : forall x l, operand x = false -> free jam l -> free jam (x :: l).
  Proof.
    intros x l X F a m b E (p & q & r & -> & P & Q & R). destruct a as [|y a]; cbn in E.
    - injection E as E1 E2. subst. congruence.
    - injection E as E1 E2. apply (F a [p; q; r] b); [exact E2|]. exists p, q, r. auto.
  Qed.
  Lemma jam_cons2 : forall x y l, operand y = false -> free jam (y :: l) -> free jam (x :: y :: l).
  Proof.
    intros x y l Y F a m b E (p & q & r & -> & P & Q & R). destruct a as [|z a]; cbn in E.
    - injection E as E1 E2 E3. subst. congruence.
    - injection E as E1 E2. apply (F a [p; q; r] b); [exact E2|]. exists p, q, r. auto.
  Qed.
  Lemma jam_operands : forall l x y, operand x = true -> operand y = true -> free jam (x :: y :: l) -> forallb operand l = true.
  Proof.
    induction l as [|z l IH]; intros x y X Y F; [reflexivity|]. cbn [forallb]. 
    assert (Z : operand z = true).
    { destruct (operand z) eqn:E; [reflexivity|]. exfalso. apply (F [] [x; y; z] l); [reflexivity|]. exists x, y, z. auto. }
    rewrite Z. apply (IH y z); auto. apply (free_r _ [x]). exact F.
  Qed.
  Lemma jam_all : forall l, forallb operand l = true -> free jam l.
  Proof.
    intros l H. apply (free_end jam [] l); [apply jam_end| |exact H].
    intros a m b E (x & y & z & -> & _). destruct a; discriminate.
  Qed.

  (* ---------- the shape of the left end ---------- *)
  Inductive T : list piece -> Prop :=
  | T_plain l : forallb operand l = true -> T l
  | T_cons z op l : operand z = true -> T l -> T (z :: Mop op :: l).
  Definition not_mm (o : piece) (l : list piece) : Prop := forall a b l', o = Mop a -> l <> Mop b :: l'.
  Inductive S : list piece -> Prop :=
  | S_plain l : forallb operand l = true -> S l
  | S_tail op l : T l -> S (Mop op :: l)
  | S_mop op o l : operand o = false -> not_mm o l -> S (o :: l) -> S (Mop op :: o :: l)
  | S_dop op y l : operand y = true -> S l -> S (Dop op :: y :: l).
  Definition validfrom (s : gstate) (l : list piece) : Prop := gend (grun s l) <> None.
  Lemma valid_step : forall s x l, validfrom s (x :: l) -> exists s' w, gstep s x = Some (s', w) /\ validfrom s' l.
  Proof.
    intros s x l H. unfold validfrom in *. cbn [grun] in H. destruct (gstep s x) as [[s' w]|]; [|cbn in H; congruence].
    exists s', w. split; [reflexivity|]. destruct (grun s' l) as [[s'' ws]|]; [|cbn in H; congruence]. destruct s''; cbn in *; congruence.
  Qed.
  Lemma valid_app : forall a s l, validfrom s (a ++ l) -> exists s' w, grun s a = Some (s', w) /\ validfrom s' l.
  Proof.
    induction a as [|x a IH]; intros s l H; [exists s, []; auto|]. destruct (valid_step _ _ _ H) as (s' & w & E & H').
    destruct (IH _ _ H') as (s'' & w' & E' & H''). exists s'', (w ++ w'). cbn [grun]. rewrite E, E'. auto.
  Qed.
  Lemma T_of : forall n l op, length l <= n -> tame (Mop op :: l) -> free jam l -> match l with [] => True | z :: _ => operand z = true end -> T l.
  Proof.
    induction n as [|n IH]; intros l op L TM J H; [destruct l; [apply T_plain; reflexivity|cbn in L; lia]|].
    destruct l as [|z l]; [apply T_plain; reflexivity|]. destruct l as [|y l]; [apply T_plain; cbn; rewrite H; reflexivity|].
    destruct y as [e|f|o|o].
    - apply T_plain. cbn [forallb]. rewrite H. cbn. eapply jam_operands; [exact H| |exact J]. reflexivity.
    - apply T_plain. cbn [forallb]. rewrite H. cbn. eapply jam_operands; [exact H| |exact J]. reflexivity.
    - apply T_cons; [exact H|]. apply (IH l o); [cbn in L; lia|apply (free_r awkward [Mop op; z]); exact TM|apply (free_r jam [z; Mop o]); exact J|].
      destruct l as [|y l]; [exact I|]. destruct (operand y) eqn:Y; [reflexivity|]. exfalso.
      apply (TM [] [Mop op; z; Mop o; y] l); [reflexivity|]. constructor; assumption.
    - exfalso. apply (TM [] [Mop op; z; Dop o] l); [reflexivity|]. constructor. assumption.
  Qed.
  Lemma S_of : forall n l w v, length l <= n -> operand w = true -> tame l -> free jam (w :: l) -> validfrom (GCur v) l -> S l.
  Proof.
    induction n as [|n IH]; intros l w v L W TM J VA; [destruct l; [apply S_plain; reflexivity|cbn in L; lia]|].
    destruct l as [|x l]; [apply S_plain; reflexivity|]. cbn in L.
    destruct (valid_step _ _ _ VA) as (s' & r & E & VA').
    destruct x as [e|f|op|op].
    - apply S_plain. cbn [forallb operand]. eapply jam_operands; [exact W| |exact J]. reflexivity.
    - apply S_plain. cbn [forallb operand]. eapply jam_operands; [exact W| |exact J]. reflexivity.
    - cbn in E. injection E as <- <-. destruct l as [|y l]; [apply S_tail, T_plain; reflexivity|].
      destruct (operand y) eqn:Y.
      + apply S_tail. eapply T_of; [apply le_n|exact TM|apply (free_r jam [w; Mop op]); exact J|exact Y].
      + apply S_mop; [exact Y| |].
        * intros a b l' -> ->. apply (TM [] [Mop op; Mop a; Mop b] l'); [reflexivity|]. constructor.
        * eapply (IH _ w); [lia|exact W|apply (free_r awkward [Mop op]); exact TM| |exact VA'].
          apply jam_cons2; [exact Y|]. apply (free_r jam [w; Mop op]). exact J.
    - cbn in E. injection E as <- <-. destruct l as [|y l]; [unfold validfrom in VA'; cbn in VA'; congruence|].
      destruct (valid_step _ _ _ VA') as (s'' & r & E & VA''). 
      assert (Y : operand y = true) by (destruct y; cbn in E; try discriminate; reflexivity).
      apply S_dop; [exact Y|]. assert (exists v', s'' = GCur v') as [v' ->] by (destruct y; cbn in E; try discriminate; injection E as <- _; eexists; reflexivity).
      eapply (IH _ y); [cbn in L; lia|exact Y|apply (free_r awkward [Dop op; y]); exact TM|apply (free_r jam [w; Dop op]); exact J|exact VA''].
  Qed.

  (* ---------- operators ---------- *)
  Lemma nth_items : forall a l k, nth_error (items (a ++ l)) (length a + k) = nth_error (items l) k.
  Proof. intros a l k. rewrite map_app. rewrite nth_error_app2 by (rewrite map_length; lia). rewrite map_length. f_equal. lia. Qed.
  Definition hd_ok (a : list piece) : Prop := match a with [] => True | x :: _ => operand x = true end.
  Definition c0 (st : stack D) : bool := match nthc st 0 with Some c => is_op c | None => false end.
  Definition c1 (st : stack D) : bool := match nthc st 1 with Some c => is_op c | None => false end.
  Lemma mop_step : forall n a z op l, operand z = true -> hd_ok a ->
    mopReduce (Datatypes.S n) (length a) (items (a ++ z :: Mop op :: l)) =
    (let* r := mopReduce n (length (a ++ [der1 op z])) (items ((a ++ [der1 op z]) ++ l)) in Ok (fst r, true)).
  Proof.
    intros n a z op l Z HA. cbn [mopReduce].
    pose proof (nth_items a (z :: Mop op :: l) 0) as E0. rewrite Nat.add_0_r in E0. rewrite E0.
    pose proof (nth_items a (z :: Mop op :: l) 1) as E1. rewrite Nat.add_1_r in E1. rewrite E1. cbn [map nth_error item_of].
    assert (C : match nthc (items (a ++ z :: Mop op :: l)) 0 with Some c => is_op c | None => false end
      || (length a =? 1) && match nthc (items (a ++ z :: Mop op :: l)) 1 with Some c => is_op c | None => false end = false).
    { destruct a as [|x [|y a]]; unfold nthc; cbn; [rewrite is_op_item, Z; reflexivity| |].
      - cbn in HA. rewrite !is_op_item, HA, Z. reflexivity.
      - cbn in HA. rewrite is_op_item, HA. reflexivity. }
    rewrite C. rewrite ie_item.
    replace (firstn (length a) (items (a ++ z :: Mop op :: l))) with (items a).
    2:{ rewrite map_app. rewrite <- (map_length (@item_of D) a) at 1. rewrite firstn_app, Nat.sub_diag, firstn_all, firstn_O, app_nil_r. reflexivity. }
    replace (skipn (2 + length a) (items (a ++ z :: Mop op :: l))) with (items l).
    2:{ rewrite map_app. rewrite <- (map_length (@item_of D) a) at 1. rewrite skipn_app. rewrite skipn_all2 by lia. replace (2 + length (items a) - length (items a)) with 2 by lia. reflexivity. }
    rewrite app_length. cbn [length]. rewrite Nat.add_1_r. rewrite !map_app. rewrite <- app_assoc. reflexivity.
  Qed.
  (* no monadic operator at the second place, or an operator at the first one *)
  Lemma mop_stop : forall n a l, (match l with _ :: Mop _ :: _ => False | _ => True end) ->
    mopReduce (Datatypes.S n) (length a) (items (a ++ l)) = Ok (items (a ++ l), false).
  Proof.
    intros n a l H. cbn [mopReduce].
    pose proof (nth_items a l 0) as E0. rewrite Nat.add_0_r in E0. rewrite E0.
    pose proof (nth_items a l 1) as E1. rewrite Nat.add_1_r in E1. rewrite E1.
    destruct l as [|x [|y l]]; cbn; [reflexivity..|]. destruct y; try reflexivity. destruct H.
  Qed.
  Lemma mop_stop1 : forall n x o l, operand o = false -> mopReduce (Datatypes.S n) 1 (items (x :: o :: l)) = Ok (items (x :: o :: l), false).
  Proof.
    intros n x o l O. cbn [mopReduce nth_error map]. destruct l as [|y l]; [reflexivity|]. cbn [map nth_error].
    unfold nthc. cbn [nth_error option_map]. rewrite !is_op_item, O. cbn [negb Nat.eqb andb]. rewrite orb_true_r. destruct y; reflexivity.
  Qed.
  Lemma mop_stop0 : forall n x l i, operand x = false -> mopReduce (Datatypes.S n) i (items (x :: l)) = Ok (items (x :: l), false).
  Proof.
    intros n x l i X. cbn [mopReduce map]. unfold nthc. cbn [nth_error option_map]. rewrite is_op_item, X. cbn [negb orb].
    destruct (nth_error (item_of x :: items l) i); [|reflexivity]. destruct (nth_error (items l) i) as [[e []]|]; reflexivity.
  Qed.
  Lemma mop_T : forall l, T l -> forall a n, hd_ok a -> length l < n ->
    exists l' b, forallb operand l' = true /\ mopReduce n (length a) (items (a ++ l)) = Ok (items (a ++ l'), b) /\ length l' <= length l /\
      (forall c, joint (c ++ a) -> group (c ++ a ++ l) = group (c ++ a ++ l')) /\ (forall e, In (N e) l' -> In (N e) l).
  Proof.
    induction 1 as [l H|z op l Z TL IH]; intros a n HA L; destruct n as [|n]; try (cbn in L; lia).
    - exists l, false. split; [exact H|]. split; [|split; [lia|split; [reflexivity|auto]]]. apply mop_stop.
      destruct l as [|x [|y l]]; try exact I. cbn in H. destruct y; try exact I. rewrite andb_false_r in H. discriminate.
    - rewrite mop_step by assumption.
      destruct (IH (a ++ [der1 op z]) n) as (l' & b & O & E & LE & GR & IN).
      { destruct a; cbn; [reflexivity|exact HA]. }
      { cbn in L. lia. }
      rewrite E. cbn [obind fst]. exists (der1 op z :: l'), true. split; [cbn; exact O|]. rewrite <- app_assoc. split; [reflexivity|]. split; [cbn; lia|]. split; [|intros e [Q|Q]; [discriminate|right; right; apply IN, Q]].
      intros c J. rewrite !app_assoc. rewrite group_mop by assumption. specialize (GR c). rewrite <- !app_assoc in *. cbn [app] in GR. apply GR.
      rewrite app_assoc. apply joint_operand. reflexivity.
  Qed.
  Lemma dop_step : forall a z op y l, operand z = true -> hd_ok a -> length a <= 1 ->
    dopReduce (length a) (items (a ++ z :: Dop op :: y :: l)) = Ok (items (a ++ der2 op z y :: l), true).
  Proof.
    intros a z op y l Z HA LA. destruct a as [|x [|? ?]]; [| |cbn in LA; lia]; unfold dopReduce, nthc; cbn [length nth_error map app option_map firstn skipn Nat.add].
    - rewrite is_op_item, Z. cbn [negb orb Nat.eqb andb item_of]. rewrite !ie_item. reflexivity.
    - cbn in HA. rewrite !is_op_item, HA, Z. cbn [negb orb Nat.eqb andb item_of]. rewrite !ie_item. reflexivity.
  Qed.
  Lemma dop_stop : forall a l, length a <= 1 -> (match l with _ :: Dop _ :: _ => False | _ => True end) ->
    dopReduce (length a) (items (a ++ l)) = Ok (items (a ++ l), false).
  Proof.
    intros a l LA H. unfold dopReduce.
    pose proof (nth_items a l 0) as E0. rewrite Nat.add_0_r in E0. rewrite E0.
    pose proof (nth_items a l 1) as E1. rewrite Nat.add_1_r in E1. rewrite E1.
    destruct l as [|x [|y l]]; cbn [map nth_error]; [reflexivity..|]. destruct y; try reflexivity. destruct H.
  Qed.
  Lemma dop_stop1 : forall x o l, operand o = false -> dopReduce 1 (items (x :: o :: l)) = Ok (items (x :: o :: l), false).
  Proof.
    intros x o l O. unfold dopReduce, nthc. cbn [nth_error map option_map]. rewrite !is_op_item, O. cbn [negb Nat.eqb andb]. rewrite orb_true_r.
    destruct l as [|y [|z l]]; cbn; [reflexivity|destruct y; reflexivity|destruct y; reflexivity].
  Qed.
  Lemma dop_stop0 : forall x l i, operand x = false -> dopReduce i (items (x :: l)) = Ok (items (x :: l), false).
  Proof.
    intros x l i X. unfold dopReduce, nthc. cbn [map]. cbn [nth_error option_map]. rewrite is_op_item, X. cbn [negb orb].
    destruct (nth_error (item_of x :: items l) i); [|reflexivity]. destruct (nth_error (items l) i) as [[e []]|]; try reflexivity. destruct (nth_error (item_of x :: items l) (2 + i)); reflexivity.
  Qed.
  Lemma plain_stop : forall a l, length a <= 1 -> forallb operand l = true -> (forall n, mopReduce (Datatypes.S n) (length a) (items (a ++ l)) = Ok (items (a ++ l), false)) /\
    dopReduce (length a) (items (a ++ l)) = Ok (items (a ++ l), false).
  Proof.
    intros a l LA H. assert (X : forall (P : Prop), match l with _ :: Mop _ :: _ | _ :: Dop _ :: _ => P | _ => True end).
    { intros P. destruct l as [|x [|y l]]; try exact I. cbn in H. destruct y; try exact I; cbn in H; rewrite andb_false_r in H; discriminate. }
    specialize (X False). split; [intros n; apply mop_stop|apply dop_stop; [exact LA|]]; destruct l as [|x [|[] l]]; auto.
  Qed.

  Ltac nf := cbn [length app map obind fst snd orb] in *.
  (* resolveOperators, when more tokens follow *)
  Lemma resolve_more : forall n l x0 w, length l < n -> operand x0 = true -> operand w = true -> S l ->
    exists l', forallb operand l' = true /\ l' <> [] /\ resolveOperators n false (items (x0 :: w :: l)) = Ok (items (x0 :: l')) /\
      (forall c, group (c ++ x0 :: w :: l) = group (c ++ x0 :: l')) /\ (forall e, In (N e) l' -> In (N e) (w :: l)).
  Proof.
    induction n as [|n IH]; intros l x0 w L X W SL; [lia|].
    assert (CTX : forall (c : list piece) x, operand x = true -> joint (c ++ [x])) by (intros c x Hx; apply joint_operand; exact Hx).
    destruct SL as [l H|op l TL|op o l O NM SL|op y l Y SL].
    - destruct (plain_stop [x0] (w :: l) ltac:(cbn; lia) ltac:(cbn; rewrite W; exact H)) as [M1 D1]. nf.
      exists (w :: l). split; [cbn; rewrite W; exact H|]. split; [discriminate|]. split; [|split; [reflexivity|auto]].
      cbn [resolveOperators obind fst snd]. rewrite M1. nf. rewrite D1. reflexivity.
    - cbn [resolveOperators obind fst snd].
      pose proof (mop_step (length (items (x0 :: w :: Mop op :: l))) [x0] w op l W X) as MS. nf. rewrite MS. clear MS.
      destruct (mop_T l TL [x0; der1 op w] (Datatypes.S (Datatypes.S (Datatypes.S (length (items l))))) X) as (l' & b & O & E & LE & GR & IN).
      { rewrite map_length. lia. }
      nf. rewrite E. nf.
      destruct (plain_stop [x0] (der1 op w :: l') ltac:(cbn; lia) ltac:(cbn; exact O)) as [_ D1]. nf. rewrite D1. nf.
      destruct (IH l' x0 (der1 op w)) as (l'' & O' & NE & E' & GR' & IN'); [cbn in L; lia|exact X|reflexivity|apply S_plain; exact O|].
      exists l''. split; [exact O'|]. split; [exact NE|]. split; [exact E'|]. split; [|intros e Q; specialize (IN' _ Q); destruct IN' as [Q'|Q']; [discriminate|]; cbn; auto]. intros c.
      rewrite <- GR'. change (c ++ x0 :: w :: Mop op :: l) with (c ++ [x0] ++ w :: Mop op :: l). rewrite app_assoc, group_mop by auto.
      rewrite <- app_assoc. apply (GR c). change [x0; der1 op w] with ([x0] ++ [der1 op w]). rewrite app_assoc. apply joint_operand. reflexivity.
    - cbn [resolveOperators obind fst snd].
      pose proof (mop_step (length (items (x0 :: w :: Mop op :: o :: l))) [x0] w op (o :: l) W X) as MS. nf. rewrite MS. clear MS.
      assert (M2 : forall n, mopReduce (Datatypes.S n) 2 (items (x0 :: der1 op w :: o :: l)) = Ok (items (x0 :: der1 op w :: o :: l), false)).
      { intros m. apply (mop_stop m [x0; der1 op w] (o :: l)). destruct l as [|[] l]; try exact I. 
        destruct o; try discriminate; [eapply NM; reflexivity|]. inversion SL; subst; try discriminate. }
      nf. rewrite M2. nf.
      assert (exists l2 b, dopReduce 1 (items (x0 :: der1 op w :: o :: l)) = Ok (items (x0 :: l2), b) /\ (exists w2 l3, l2 = w2 :: l3 /\ operand w2 = true /\ S l3 /\ length l3 <= length (o :: l) /\ (forall e, In (N e) (w2 :: l3) -> In (N e) (der1 op w :: o :: l))) /\
          (forall c, group (c ++ x0 :: der1 op w :: o :: l) = group (c ++ x0 :: l2))) as (l2 & b & ED & (w2 & l3 & -> & W2 & S3 & L3 & ID) & GD).
      { destruct o as [| |o|o]; try discriminate.
        - exists (der1 op w :: Mop o :: l), false. split; [apply (dop_stop [x0] (der1 op w :: Mop o :: l)); [cbn; lia|exact I]|]. split; [|reflexivity].
          exists (der1 op w), (Mop o :: l). auto.
        - inversion SL as [? B|?|?|? y l' Y S']; subst; [discriminate|]. exists (der2 o (der1 op w) y :: l'), true.
          split; [apply (dop_step [x0] (der1 op w) o y l'); [reflexivity|exact X|cbn; lia]|]. split.
          + exists (der2 o (der1 op w) y), l'. split; [reflexivity|]. split; [reflexivity|]. split; [exact S'|]. split; [cbn; lia|]. intros e [Q|Q]; [discriminate|cbn; auto].
          + intros c. change (c ++ x0 :: der1 op w :: Dop o :: y :: l') with (c ++ [x0] ++ der1 op w :: Dop o :: y :: l'). rewrite app_assoc, group_dop by auto. rewrite <- app_assoc. reflexivity. }
      nf. rewrite ED. nf.
      destruct (IH l3 x0 w2) as (l'' & O' & NE & E' & GR' & IN'); [cbn in *; lia|exact X|exact W2|exact S3|].
      exists l''. split; [exact O'|]. split; [exact NE|]. split; [exact E'|]. split; [|intros e Q; apply IN', ID in Q; destruct Q as [Q'|Q']; [discriminate|cbn; auto]]. intros c. rewrite <- GR', <- GD.
      change (c ++ x0 :: w :: Mop op :: o :: l) with (c ++ [x0] ++ w :: Mop op :: o :: l). rewrite app_assoc, group_mop by auto. rewrite <- app_assoc. reflexivity.
    - cbn [resolveOperators obind fst snd].
      pose proof (mop_stop (length (items (x0 :: w :: Dop op :: y :: l))) [x0] (w :: Dop op :: y :: l) I) as MS. nf. rewrite MS. nf.
      pose proof (dop_step [x0] w op y l W X ltac:(cbn; lia)) as DS. nf. rewrite DS. nf.
      destruct (IH l x0 (der2 op w y)) as (l'' & O' & NE & E' & GR' & IN'); [cbn in *; lia|exact X|reflexivity|exact SL|].
      exists l''. split; [exact O'|]. split; [exact NE|]. split; [exact E'|]. split; [|intros e Q; specialize (IN' _ Q); destruct IN' as [Q'|Q']; [discriminate|]; cbn; auto]. intros c. rewrite <- GR'.
      change (c ++ x0 :: w :: Dop op :: y :: l) with (c ++ [x0] ++ w :: Dop op :: y :: l). rewrite app_assoc, group_dop by auto. rewrite <- app_assoc. reflexivity.
  Qed.
  (* resolveOperators at the end *)
  Lemma resolve_last : forall n l w, length l < n -> operand w = true -> S l ->
    exists l', forallb operand l' = true /\ resolveOperators n true (items (w :: l)) = Ok (items l') /\ group (w :: l) = group l'.
  Proof.
    induction n as [|n IH]; intros l w L W SL; [lia|].
    destruct SL as [l H|op l TL|op o l O NM SL|op y l Y SL].
    - assert (HH : forallb operand (w :: l) = true) by (cbn; rewrite W; exact H).
      destruct (plain_stop [] (w :: l) ltac:(cbn; lia) HH) as [M0 D0]. destruct (plain_stop [w] l ltac:(cbn; lia) H) as [M1 D1]. nf.
      exists (w :: l). split; [exact HH|]. split; [|reflexivity].
      cbn [resolveOperators]. rewrite M0. nf. rewrite M1. nf. rewrite D0. nf. rewrite D1. reflexivity.
    - cbn [resolveOperators].
      pose proof (mop_step (length (items (w :: Mop op :: l))) [] w op l W I) as MS. nf. rewrite MS. clear MS.
      destruct (mop_T l TL [der1 op w] (length (items (w :: Mop op :: l))) eq_refl) as (l' & b & O & E & LE & GR & IN).
      { cbn [length map]. rewrite map_length. lia. }
      nf. rewrite E. nf.
      assert (HH : forallb operand (der1 op w :: l') = true) by (cbn; exact O).
      destruct (plain_stop [] (der1 op w :: l') ltac:(cbn; lia) HH) as [M0 D0]. destruct (plain_stop [der1 op w] l' ltac:(cbn; lia) O) as [M1 D1]. nf.
      rewrite M1. nf. rewrite D0. nf. rewrite D1. nf.
      destruct (IH l' (der1 op w)) as (l'' & O' & E' & GR'); [cbn in L; lia|reflexivity|apply S_plain; exact O|].
      exists l''. split; [exact O'|]. split; [exact E'|]. rewrite <- GR'. pose proof (group_mop [] w op l joint_nil W) as GM. cbn [app] in GM. rewrite GM.
      apply (GR []). apply (joint_operand []). reflexivity.
    - cbn [resolveOperators].
      pose proof (mop_step (length (items (w :: Mop op :: o :: l))) [] w op (o :: l) W I) as MS. nf. rewrite MS. clear MS. nf.
      pose proof (fun n => mop_stop1 n (der1 op w) o l O) as M1. nf. rewrite M1. nf. rewrite M1. nf.
      assert (exists w2 l3 b, dopReduce 0 (items (der1 op w :: o :: l)) = Ok (items (w2 :: l3), b) /\ operand w2 = true /\ S l3 /\ length l3 <= length (o :: l) /\
          group (der1 op w :: o :: l) = group (w2 :: l3) /\ dopReduce 1 (items (w2 :: l3)) = Ok (items (w2 :: l3), false)) as (w2 & l3 & b & ED & W2 & S3 & L3 & GD & D1).
      { destruct o as [| |o|o]; try discriminate.
        - exists (der1 op w), (Mop o :: l), false. split; [apply (dop_stop [] (der1 op w :: Mop o :: l)); [cbn; lia|exact I]|]. repeat split; auto. apply dop_stop1. reflexivity.
        - inversion SL as [? B|?|?|? y l' Y S']; subst; [discriminate|]. exists (der2 o (der1 op w) y), l', true.
          split; [apply (dop_step [] (der1 op w) o y l'); [reflexivity|exact I|cbn; lia]|]. split; [reflexivity|]. split; [exact S'|]. split; [cbn; lia|].
          split; [apply (group_dop []); [apply joint_nil|reflexivity|exact Y]|].
          inversion S' as [? B|?|?|?]; subst; [apply (plain_stop [_] l'); [cbn; lia|exact B]|apply dop_stop1; reflexivity..]. }
      nf. rewrite ED. nf. rewrite D1. nf.
      destruct (IH l3 w2) as (l'' & O' & E' & GR'); [cbn in *; lia|exact W2|exact S3|].
      exists l''. split; [exact O'|]. split; [exact E'|]. rewrite <- GR', <- GD. apply (group_mop []); [apply joint_nil|exact W].
    - cbn [resolveOperators].
      pose proof (mop_stop (length (items (w :: Dop op :: y :: l))) [] (w :: Dop op :: y :: l) I) as M0. nf. rewrite M0. nf.
      pose proof (fun n => mop_stop1 n w (Dop op) (y :: l) eq_refl) as M1. nf. rewrite M1. nf.
      pose proof (dop_step [] w op y l W I ltac:(cbn; lia)) as DS. nf. rewrite DS. nf.
      assert (D1 : dopReduce 1 (items (der2 op w y :: l)) = Ok (items (der2 op w y :: l), false)).
      { inversion SL as [? B|?|?|?]; subst; [apply (plain_stop [_] l); [cbn; lia|exact B]|apply dop_stop1; reflexivity..]. }
      nf. rewrite D1. nf.
      destruct (IH l (der2 op w y)) as (l'' & O' & E' & GR'); [cbn in *; lia|reflexivity|exact SL|].
      exists l''. split; [exact O'|]. split; [exact E'|]. rewrite <- GR'. apply (group_dop []); [apply joint_nil|exact W|exact Y].
  Qed.
End Reductions.
