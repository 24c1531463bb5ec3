(* P_Sentence3.v -- the parser reads a sentence, piece by piece from the right. *)
From Verif Require Import Base M_Scan M_Syntax M_Parse S_Parse P_Parse P_Lines P_Sentence P_Sentence2.
From Coq Require Import String List Bool Arith Lia.
Import ListNotations.
Open Scope nat_scope.
Open Scope list_scope.

Section Right.
  Context {D : Type}.
  Local Notation expr := (expr D).
  Local Notation func := (func D).
  Local Notation piece := (piece D).
  Local Notation items := (map (@item_of D)).

  (* ---------- the meaning does not change ---------- *)
  Lemma mean_N : forall ws r, mean (ws ++ [N r]) = option_map N (nm (ws ++ [N r] : list piece)).
  Proof.
    intros ws r. unfold mean. destruct (nm (ws ++ [N r])) as [e|] eqn:E; [reflexivity|].
    assert (VN : forall l : list piece, verbs (l ++ [N r]) = None).
    { induction l as [|x l IH]; [reflexivity|]. cbn. destruct x; try reflexivity. rewrite IH. reflexivity. }
    destruct ws as [|x ws]; [reflexivity|]. cbn [app] in *. destruct x; cbn [verbs]; rewrite ?VN; reflexivity.
  Qed.
  Lemma nm_ctx : forall n (ws : list piece) g b b', length ws <= n -> nm b = nm b' -> nm (ws ++ V g :: b) = nm (ws ++ V g :: b').
  Proof.
    induction n as [|n IH]; intros ws g b b' L E; (destruct ws as [|x ws]; [cbn; rewrite E; reflexivity|]); cbn in L; [lia|].
    cbn [app]. destruct x as [a|f| |]; try reflexivity.
    - destruct ws as [|y ws]; [cbn; rewrite E; reflexivity|]. cbn [app nm]. destruct y; try reflexivity.
      cbn in L. rewrite (IH ws g b b') by (auto; lia). reflexivity.
    - cbn [nm]. rewrite (IH ws g b b') by (auto; lia). reflexivity.
  Qed.
  Lemma nm_NN : forall n (ws : list piece) x y b, length ws <= n -> nm (ws ++ N x :: N y :: b) = None.
  Proof.
    induction n as [|n IH]; intros ws x y b L; (destruct ws as [|z ws]; [reflexivity|]); cbn in L; [lia|].
    cbn [app]. destruct z as [a|f| |]; try reflexivity.
    - destruct ws as [|u ws]; [reflexivity|]. cbn [app nm]. destruct u; try reflexivity.
      cbn in L. rewrite IH by lia. reflexivity.
    - cbn [nm]. rewrite IH by lia. reflexivity.
  Qed.
  Definition vend (d : list piece) : Prop := d = [] \/ exists a x, d = a ++ [x] /\ ((exists f, x = V f) \/ (exists op, x = Mop op)).
  Lemma vend_joint : forall d, vend d -> joint d.
  Proof.
    intros d [->|(a & x & -> & X)]; [apply joint_nil|]. intros a' op E. apply app_inj_tail in E. destruct E as [_ ->].
    destruct X as [[f F]|[o F]]; discriminate.
  Qed.
  Lemma sem_N : forall d b b' r r', vend d -> forallb operand b = true -> forallb operand b' = true ->
    nm (b ++ [N r]) = nm (b' ++ [N r']) -> sem (d ++ b ++ [N r]) = sem (d ++ b' ++ [N r']).
  Proof.
    intros d b b' r r' VD B B' E. pose proof (vend_joint _ VD) as J. unfold sem.
    destruct (grun GNone d) as [[s ws]|] eqn:G.
    2:{ unfold group. rewrite !grun_app, G. reflexivity. }
    assert (O : forall (l : list piece) x, forallb operand l = true -> forallb operand (l ++ [N x]) = true) by (intros l x H; rewrite forallb_app, H; reflexivity).
    assert (NE : forall (l : list piece) x, l ++ [x] <> []) by (intros [] ? ?; discriminate).
    rewrite (group_tail_eq d (b ++ [N r]) s ws J (O _ _ B) (NE _ _) G), (group_tail_eq d (b' ++ [N r']) s ws J (O _ _ B') (NE _ _) G).
    rewrite !app_assoc, !mean_N. f_equal. destruct VD as [->|(a & x & -> & X)].
    - cbn in G. injection G as <- <-. exact E.
    - destruct (state_verb a x s ws X G) as [f ->]. cbn [before]. rewrite <- !app_assoc. cbn [app]. eapply nm_ctx; [apply le_n|exact E].
  Qed.
  Lemma sem_fA : forall d f r, vend d -> sem (d ++ [V f; N r]) = sem (d ++ [N (EApp f None r false)]).
  Proof. intros d f r VD. apply (sem_N d [V f] []); auto. Qed.
  Lemma sem_AfA : forall d l f r, vend d -> sem (d ++ [N l; V f; N r]) = sem (d ++ [N (EApp f (Some l) r false)]).
  Proof. intros d l f r VD. apply (sem_N d [N l; V f] []); auto. Qed.
  Lemma sem_NN : forall (d : list piece) y l f r, joint d -> sem (d ++ [N y; N l; V f; N r]) = None.
  Proof.
    intros d y l f r J. unfold sem. destruct (grun GNone d) as [[s ws]|] eqn:G.
    2:{ unfold group. rewrite !grun_app, G. reflexivity. }
    rewrite (group_tail_eq d [N y; N l; V f; N r] s ws J eq_refl ltac:(discriminate) G). rewrite app_assoc. change [N y; N l; V f; N r] with ([N y; N l; V f] ++ [N r]).
    rewrite app_assoc, mean_N, <- app_assoc. cbn [app]. rewrite (nm_NN (length (ws ++ before s))) by lia. reflexivity.
  Qed.
  Lemma verbs_app : forall (a b : list piece), verbs (a ++ b) = match verbs a, verbs b with Some x, Some y => Some (x ++ y) | _, _ => None end.
  Proof.
    induction a as [|x a IH]; intros b; [cbn; destruct (verbs b); reflexivity|]. cbn. destruct x; try reflexivity.
    rewrite IH. destruct (verbs a), (verbs b); reflexivity.
  Qed.
  Lemma tl_snoc : forall (fs : list func) g h, flatt (fs ++ [g; h]) = flatt (fs ++ [FTrain (flatt [g; h])]).
  Proof.
    induction fs as [|f fs IH]; intros g h; [reflexivity|]. specialize (IH g h). destruct fs as [|k fs].
    - cbn [app] in *. rewrite (tl_cons f g [h]), (tl_cons f _ []). f_equal.
    - cbn [app] in *. rewrite (tl_cons f k (fs ++ [g; h])), (tl_cons f k (fs ++ [FTrain _])). f_equal. exact IH.
  Qed.
  Lemma nm_V : forall n (ws : list piece) f, length ws <= n -> nm (ws ++ [V f]) = None.
  Proof.
    intros n ws f _. destruct (nm (ws ++ [V f])) as [e|] eqn:E; [|reflexivity]. apply nm_last in E. destruct E as (a & m & E).
    apply app_inj_tail in E. destruct E as [_ E]. discriminate.
  Qed.
  Lemma mean_ff : forall (ws : list piece) g h, mean (ws ++ [V g; V h]) = mean (ws ++ [V (FTrain (flatt [g; h]))]).
  Proof.
    intros ws g h. unfold mean. change [V g; V h] with ([V g] ++ [V h]). rewrite app_assoc, (nm_V (length (ws ++ [V g]))) by lia. rewrite <- app_assoc.
    rewrite (nm_V (length ws)) by lia. destruct ws as [|x ws].
    - reflexivity.
    - cbn [app]. assert (VV : forall l : list piece, verbs (l ++ [V g; V h]) = match verbs l with Some fs => Some (fs ++ [g; h]) | None => None end /\
        verbs (l ++ [V (FTrain (flatt [g; h]))]) = match verbs l with Some fs => Some (fs ++ [FTrain (flatt [g; h])]) | None => None end).
      { intros l. rewrite !verbs_app. destruct (verbs l); split; reflexivity. }
      destruct (VV ws) as [V1 V2]. destruct x as [a|f| |]; cbn [verbs app] in *; rewrite ?V1, ?V2; try reflexivity; destruct (verbs ws) as [fs|]; try reflexivity.
      + rewrite tl_snoc. destruct fs; reflexivity.
      + cbn [option_map vmean]. destruct fs as [|k fs]; [cbn [app]; pose proof (tl_snoc [f] g h) as E; cbn [app] in E; rewrite E; reflexivity|].
        cbn [app]. pose proof (tl_snoc (f :: k :: fs) g h) as E. cbn [app] in E. rewrite E. reflexivity.
  Qed.
  Lemma sem_ff : forall (d : list piece) g h, joint d -> sem (d ++ [V g; V h]) = sem (d ++ [V (FTrain (flatt [g; h]))]).
  Proof.
    intros d g h J. unfold sem. destruct (grun GNone d) as [[s ws]|] eqn:G.
    2:{ unfold group. rewrite !grun_app, G. reflexivity. }
    rewrite (group_tail_eq d [V g; V h] s ws J eq_refl ltac:(discriminate) G), (group_tail_eq d [V (FTrain (flatt [g; h]))] s ws J eq_refl ltac:(discriminate) G).
    rewrite !app_assoc. apply mean_ff.
  Qed.

  (* ---------- the loops; the pieces are in reverse order ---------- *)
  Definition fa_ok (last : bool) (rest : list piece) : Prop :=
    match rest with [] => last = true | V _ :: _ | Mop _ :: _ => True | _ => False end.
  Definition afa_ok (last : bool) (rest : list piece) : Prop :=
    match rest with
    | [] => last = true
    | V _ :: _ => True
    | N _ :: r => match r with [] | Dop _ :: _ => last = true | _ => True end
    | _ => last = true
    end.
  Lemma fA_cases : forall last rps, reducefA last (items rps) = Ok None \/
    exists r f rest, rps = N r :: V f :: rest /\ fa_ok last rest /\ reducefA last (items rps) = Ok (Some (items (N (EApp f None r false) :: rest))).
  Proof.
    intros last rps. destruct rps as [|[r| | |] [|[|f| |] rest]]; try (left; reflexivity).
    unfold reducefA. cbn [map item_of ic ie class_eqb andb asFunction].
    destruct rest as [|x rest]; cbn [map].
    - destruct last; cbn; [right; exists r, f, []; cbn; auto|left; reflexivity].
    - destruct x as [y|y|y|y]; cbn; try (left; reflexivity); right; [exists r, f, (V y :: rest)|exists r, f, (Mop y :: rest)]; cbn; auto.
  Qed.
  Lemma AfA_cases : forall last rps, reduceAfA last (items rps) = Ok None \/
    exists l r f rest, rps = N r :: V f :: N l :: rest /\ afa_ok last rest /\ reduceAfA last (items rps) = Ok (Some (items (N (EApp f (Some l) r false) :: rest))).
  Proof.
    intros last rps. destruct rps as [|r [|f [|l rest]]]; try (left; reflexivity).
    unfold reduceAfA. cbn [map].
    match goal with |- context [if ?c then _ else _] => destruct c eqn:E end; [|left; reflexivity].
    apply andb_prop in E. destruct E as [E E4]. apply andb_prop in E. destruct E as [E E3]. apply andb_prop in E. destruct E as [E1 E2].
    destruct r; try discriminate. destruct f; try discriminate. destruct l; try discriminate. right. exists e0, e, f, rest. split; [reflexivity|].
    split; [|reflexivity]. destruct rest as [|y [|x rest]]; cbn in E1 |- *; auto.
    - destruct y; auto.
    - destruct last; [destruct y as [| | |]; auto; destruct x; auto|]. destruct y; cbn in E1; try discriminate; auto. destruct x; cbn in E1; try discriminate; auto.
  Qed.
  Lemma arrays_loop : forall last (P : list piece -> Prop),
    (forall r f rest, fa_ok last rest -> P (N r :: V f :: rest) -> P (N (EApp f None r false) :: rest)) ->
    (forall r f l rest, afa_ok last rest -> P (N r :: V f :: N l :: rest) -> P (N (EApp f (Some l) r false) :: rest)) ->
    forall n rps, length rps < n -> P rps ->
    exists rps', resolveArrays n last (items rps) = Ok (items rps') /\ P rps' /\ reducefA last (items rps') = Ok None /\ reduceAfA last (items rps') = Ok None.
  Proof.
    intros last P PF PA. induction n as [|n IH]; intros rps L H; [lia|]. cbn [resolveArrays].
    destruct (fA_cases last rps) as [E|(r & f & rest & -> & O & E)]; rewrite E; cbn [obind].
    - destruct (AfA_cases last rps) as [E'|(l & r & f & rest & -> & O & E')]; rewrite E'; cbn [obind].
      + exists rps. auto.
      + apply IH; [cbn in *; lia|]. apply PA; assumption.
    - pose proof (PF _ _ _ O H) as H'.
      destruct (AfA_cases last (N (EApp f None r false) :: rest)) as [E'|(l' & r' & f' & rest' & E1 & O' & E')]; rewrite E'; cbn [obind].
      + apply IH; [cbn in *; lia|exact H'].
      + injection E1 as <- ->. apply IH; [cbn in *; lia|]. apply PA; assumption.
  Qed.
  Definition ff_ok (last : bool) (rest : list piece) : Prop :=
    match rest with [] => last = true | Dop _ :: _ => False | _ => True end.
  Lemma ff_cases : forall last rps, reduceff last (items rps) = None \/
    exists g h rest, rps = V h :: V g :: rest /\ ff_ok last rest /\ reduceff last (items rps) = Some (items (V (FTrain (flatt [g; h])) :: rest)).
  Proof.
    intros last rps. destruct rps as [|[|h| |] [|[|g| |] rest]]; try (left; reflexivity).
    unfold reduceff. cbn [map item_of ic ie class_eqb andb].
    match goal with |- context [if ?c then _ else _] => destruct c eqn:E end; [|left; reflexivity].
    right. exists g, h, rest. split; [reflexivity|]. split; [|rewrite tl_cons; destruct h; reflexivity]. destruct rest as [|[] rest]; cbn in *; auto; try discriminate.
  Qed.
  Lemma ff_loop : forall last (P : list piece -> Prop),
    (forall g h rest, ff_ok last rest -> P (V h :: V g :: rest) -> P (V (FTrain (flatt [g; h])) :: rest)) ->
    forall n rps, length rps < n -> P rps ->
    exists rps', reduceffs n last (items rps) = Ok (items rps') /\ P rps' /\ reduceff last (items rps') = None.
  Proof.
    intros last P PF. induction n as [|n IH]; intros rps L H; [lia|]. cbn [reduceffs].
    destruct (ff_cases last rps) as [E|(g & h & rest & -> & O & E)]; rewrite E; [exists rps; auto|].
    apply IH; [cbn in *; lia|]. apply PF; assumption.
  Qed.

  (* ---------- the invariant ---------- *)
  Definition proper (x : piece) : Prop := match x with N (EIdx _) | N (EFn _) => False | _ => True end.
  Definition Inv (p : piece) (c ps : list piece) : Prop :=
    sem (c ++ ps) = Some p /\ tame (c ++ ps) /\ free jam ps /\ Forall proper (c ++ ps).
  (* the end is replaced by an operand *)
  Lemma Inv_end : forall p c d b x, operand x = true -> proper x -> sem (c ++ d ++ b) = sem (c ++ d ++ [x]) -> Inv p c (d ++ b) -> Inv p c (d ++ [x]).
  Proof.
    intros p c d b x X PX E (SE & TM & J & PR). rewrite app_assoc in TM, PR. split; [rewrite <- E; exact SE|]. split; [|split].
    - rewrite app_assoc. apply free_end; [apply awkward_end|eapply free_l; exact TM|cbn; rewrite X; reflexivity].
    - apply free_end; [apply jam_end|eapply free_l; exact J|cbn; rewrite X; reflexivity].
    - rewrite app_assoc. apply Forall_app in PR. destruct PR as [PR _]. apply Forall_app. split; [exact PR|]. constructor; [exact PX|constructor].
  Qed.
  Lemma vend_of : forall c rest, rest <> [] -> fa_ok false rest -> vend (c ++ rev rest).
  Proof.
    intros c rest NE O. destruct rest as [|x rest]; [congruence|]. right. exists (c ++ rev rest), x. cbn [rev]. rewrite app_assoc. split; [reflexivity|].
    destruct x; cbn in O; try contradiction; [left|right]; eexists; reflexivity.
  Qed.
  Lemma joint_of : forall (c : list piece) x rest, (forall op, x <> Dop op) -> joint (c ++ rev (x :: rest)).
  Proof. intros c x rest X a op E. cbn [rev] in E. rewrite app_assoc in E. apply app_inj_tail in E. destruct E as [_ E]. eapply X; exact E. Qed.
  Lemma hd_last : forall (x : piece) l y, l <> [] -> hd_error (rev (x :: l)) = hd_error (rev (y :: l)).
  Proof. intros x l y NE. cbn [rev]. destruct l as [|z l]; [congruence|]. cbn [rev]. destruct (rev l); reflexivity. Qed.
  Lemma right_more : forall p c ps, Inv p c ps -> exists rs,
    (let* rs := resolveArrays (Datatypes.S (length ps)) false (rev (items ps)) in resolveFunctions false rs) = Ok (rev (items rs)) /\ Inv p c rs /\ hd_error rs = hd_error ps.
  Proof.
    intros p c ps H. rewrite <- map_rev.
    destruct (arrays_loop false (fun rps => Inv p c (rev rps) /\ hd_error (rev rps) = hd_error ps)) with (n := Datatypes.S (length ps)) (rps := rev ps) as (rps & E & (H' & HD) & _ & _).
    - intros r f rest O [I HD]. split; [|rewrite <- HD; destruct rest as [|x rest]; [discriminate|]; cbn [rev]; rewrite <- !app_assoc; destruct (rev rest); reflexivity]. cbn [rev] in *. rewrite <- app_assoc in I. cbn [app] in I. eapply Inv_end; [reflexivity|exact Logic.I| |exact I].
      rewrite !(app_assoc c). destruct rest as [|x rest]; [cbn in O; discriminate|]. apply sem_fA. apply vend_of; [discriminate|exact O].
    - intros r f l rest O [I HD]. split; [|rewrite <- HD; destruct rest as [|x rest]; [discriminate|]; cbn [rev]; rewrite <- !app_assoc; destruct (rev rest); reflexivity]. cbn [rev] in *. rewrite <- !app_assoc in I. cbn [app] in I. eapply Inv_end; [reflexivity|exact Logic.I| |exact I].
      rewrite !(app_assoc c). destruct rest as [|x rest]; [cbn in O; discriminate|]. destruct x as [y|g|op|op]; cbn in O; try discriminate.
      + exfalso. destruct I as (SE & _). cbn [rev] in SE. rewrite <- !app_assoc in SE. cbn [app] in SE. rewrite app_assoc in SE.
        rewrite sem_NN in SE; [discriminate|]. destruct rest as [|z rest].
        * discriminate.
        * apply joint_of. intros op ->. discriminate.
      + apply sem_AfA. apply vend_of; [discriminate|exact Logic.I].
    - rewrite rev_length. lia.
    - rewrite rev_involutive. auto.
    - rewrite E. cbn [obind]. unfold resolveFunctions.
      destruct (ff_loop false (fun rps => Inv p c (rev rps) /\ hd_error (rev rps) = hd_error ps)) with (n := Datatypes.S (length (items rps))) (rps := rps) as (rps2 & E2 & (H2 & HD2) & _).
      + intros g h rest O [I HD']. split; [|rewrite <- HD'; destruct rest as [|x rest]; [discriminate|]; cbn [rev]; rewrite <- !app_assoc; destruct (rev rest); reflexivity]. cbn [rev] in *. rewrite <- app_assoc in I. cbn [app] in I. eapply Inv_end; [reflexivity|exact Logic.I| |exact I].
        rewrite !(app_assoc c). destruct rest as [|x rest]; [cbn in O; discriminate|]. apply sem_ff. apply joint_of. intros op ->. destruct O.
      + rewrite map_length. lia.
      + auto.
      + rewrite E2. cbn [obind]. exists (rev rps2). split; [|auto]. rewrite <- map_rev, rev_involutive.
        destruct (items rps2) as [|[[] ?] [|[? []] [|]]]; try reflexivity; destruct f; reflexivity.
  Qed.

  (* ---------- one more piece ---------- *)
  Lemma not_idx : forall x, proper x -> forall l c, item_of x <> mkItem (EIdx l) c.
  Proof. intros x H l c E. destruct x; cbn in E; injection E as E _; try discriminate. subst. exact H. Qed.
  Lemma brackets_none : forall l : list piece, Forall proper l -> resolveBrackets (items l) = Ok (items l).
  Proof.
    intros l F. destruct l as [|x [|y l]]; try reflexivity. cbn [map]. unfold resolveBrackets.
    destruct (item_of y) as [e c] eqn:E. destruct e; try reflexivity. exfalso. inversion F as [|? ? _ F']; subst. inversion F' as [|? ? Y _]; subst.
    eapply not_idx; eassumption.
  Qed.
  Lemma reduce_open : forall last (l : list piece), Forall proper l -> l <> [] -> reduce last (items l) =
    (let* st := resolveOperators (Datatypes.S (length l)) last (items l) in
     let* rs := resolveArrays (Datatypes.S (length st)) last (rev st) in
     let* rs := resolveFunctions last rs in
     if last && (1 <? Z.of_nat (length rs))%Z then Err else Ok (rev rs)).
  Proof.
    intros last l F NE. unfold reduce. rewrite (brackets_none l F). cbn [obind]. rewrite map_length.
    destruct l as [|x l]; [congruence|]. cbn [map]. destruct (item_of x) as [e c] eqn:E. destruct e; try reflexivity.
    exfalso. inversion F; subst. eapply not_idx; eassumption.
  Qed.
  Lemma sem_valid : forall (l : list piece) p, sem l = Some p -> validfrom GNone l.
  Proof. intros l p H. unfold sem, group, validfrom in *. intros E. rewrite E in H. discriminate. Qed.
  Lemma operators_more : forall p c x ps, Inv p (c ++ [x]) ps ->
    exists l, resolveOperators (Datatypes.S (length (x :: ps))) false (items (x :: ps)) = Ok (items l) /\ Inv p c l /\ hd_error l = Some x.
  Proof.
    intros p c x ps (SE & TM & J & PR). 
    assert (EQ : (c ++ [x]) ++ ps = c ++ x :: ps) by (rewrite <- app_assoc; reflexivity). rewrite EQ in *.
    assert (same : free jam (x :: ps) -> (forall n, mopReduce (Datatypes.S n) 1 (items (x :: ps)) = Ok (items (x :: ps), false)) ->
        dopReduce 1 (items (x :: ps)) = Ok (items (x :: ps), false) ->
        exists l, resolveOperators (Datatypes.S (length (x :: ps))) false (items (x :: ps)) = Ok (items l) /\ Inv p c l /\ hd_error l = Some x).
    { intros J' M DD. exists (x :: ps). split; [|split; [repeat split; assumption|reflexivity]].
      cbn [resolveOperators obind fst snd]. rewrite M. cbn [obind fst snd]. rewrite DD. reflexivity. }
    destruct (operand x) eqn:X.
    2:{ apply same; [apply jam_cons; assumption|intros n; apply mop_stop0; exact X|apply dop_stop0; exact X]. }
    destruct ps as [|w l].
    { apply same; [intros a m b E (? & ? & ? & -> & _); destruct a as [|? a]; [discriminate|destruct a; discriminate]|reflexivity|reflexivity]. }
    destruct (operand w) eqn:W.
    2:{ apply same; [apply jam_cons2; assumption|intros n; apply mop_stop1; exact W|apply dop_stop1; exact W]. }
    clear same.
    assert (SL : S l).
    { change (c ++ x :: w :: l) with (c ++ [x; w] ++ l) in SE, TM. rewrite app_assoc in SE, TM.
      apply sem_valid in SE. apply valid_app in SE. destruct SE as (s & ws & G & VA). 
      assert (exists v, s = GCur v) as [v ->].
      { change [x; w] with ([x] ++ [w]) in G. rewrite app_assoc, grun_app in G. destruct (grun GNone (c ++ [x])) as [[s' ws']|]; [|discriminate].
        cbn [grun] in G. destruct (gstep s' w) as [[s'' w'']|] eqn:GS; [|discriminate]. injection G as <- _.
        destruct w; try discriminate; destruct s'; cbn in GS; injection GS as <- _; eexists; reflexivity. }
      eapply S_of; [apply le_n|exact W|eapply free_r; exact TM|exact J|exact VA]. }
    destruct (resolve_more (Datatypes.S (length (x :: w :: l))) l x w ltac:(cbn; lia) X W SL) as (l' & O & NE & E & GR & IN).
    exists (x :: l'). split; [exact E|]. split; [|reflexivity]. split; [|split; [|split]].
    - unfold sem in *. rewrite <- GR. exact SE.
    - apply free_end; [apply awkward_end|eapply free_l; exact TM|cbn; rewrite X; exact O].
    - apply jam_all. cbn. rewrite X. exact O.
    - apply Forall_app in PR. destruct PR as [PR1 PR2]. apply Forall_app. split; [exact PR1|].
      inversion PR2 as [|? ? PX PR3]; subst. constructor; [exact PX|]. apply Forall_forall. intros y Y. rewrite Forall_forall in PR3. destruct y as [e| | |]; try exact Logic.I. apply (PR3 (N e)), IN, Y.
  Qed.
  Lemma Inv_nonempty : forall p c ps, Inv p c ps -> Forall proper ps.
  Proof. intros p c ps (_ & _ & _ & H). apply Forall_app in H. apply H. Qed.
  Lemma reduce_more : forall p c x ps, Inv p (c ++ [x]) ps ->
    exists l, reduce false (items (x :: ps)) = Ok (items l) /\ Inv p c l /\ hd_error l = Some x.
  Proof.
    intros p c x ps H. destruct (operators_more p c x ps H) as (l & E & I & HL).
    rewrite reduce_open.
    2:{ destruct H as (_ & _ & _ & PR). rewrite <- app_assoc in PR. apply Forall_app in PR. apply PR. }
    2:{ discriminate. }
    rewrite E. cbn [obind]. rewrite map_length. destruct (right_more p c l I) as (rs & R & I' & HD).
    destruct (resolveArrays (Datatypes.S (length l)) false (rev (items l))) as [r| |] eqn:RA; try discriminate. cbn [obind] in R |- *.
    rewrite R. cbn [obind andb]. exists rs. rewrite rev_involutive. split; [reflexivity|]. split; [exact I'|congruence].
  Qed.

  (* ---------- the end ---------- *)
  Lemma operands_joint : forall l : list piece, forallb operand l = true -> joint l.
  Proof. intros l H a op ->. rewrite forallb_app in H. cbn in H. rewrite andb_false_r in H. discriminate. Qed.
  Lemma operands_vend : forall rest : list piece, forallb operand rest = true -> (forall y r, rest <> N y :: r) -> vend (rev rest).
  Proof.
    intros rest O H. destruct rest as [|x rest]; [left; reflexivity|]. right. exists (rev rest), x. split; [reflexivity|].
    destruct x; try discriminate; [exfalso; eapply H; reflexivity|left; eexists; reflexivity].
  Qed.
  Lemma sem_operands : forall l : list piece, forallb operand l = true -> sem l = mean l.
  Proof. intros l H. unfold sem. rewrite group_operands by exact H. reflexivity. Qed.
  Lemma forallb_rev : forall (l : list piece), forallb operand (rev l) = forallb operand l.
  Proof. induction l as [|x l IH]; [reflexivity|]. cbn. rewrite forallb_app, IH. cbn. rewrite andb_true_r. apply andb_comm. Qed.
  Lemma right_last : forall p ps, forallb operand ps = true -> sem ps = Some p ->
    (let* rs := resolveArrays (Datatypes.S (length ps)) true (rev (items ps)) in resolveFunctions true rs) = Ok [item_of p].
  Proof.
    intros p ps O H. rewrite <- map_rev.
    destruct (arrays_loop true (fun rps => forallb operand rps = true /\ sem (rev rps) = Some p)) with (n := Datatypes.S (length ps)) (rps := rev ps) as (rps & E & [O' H'] & F1 & F2).
    - intros r f rest OK [Q S']. cbn [forallb operand] in *. split; [exact Q|]. cbn [rev] in *. rewrite <- app_assoc in S'. cbn [app] in S'.
      rewrite sem_fA in S'; [exact S'|]. apply operands_vend; [exact Q|]. intros y q ->. exact OK.
    - intros r f l rest OK [Q S']. cbn [forallb operand] in *. split; [exact Q|]. cbn [rev] in *. rewrite <- !app_assoc in S'. cbn [app] in S'.
      destruct rest as [|[y| | |] rest]; [| | |discriminate|discriminate].
      + rewrite sem_AfA in S'; [exact S'|]. left. reflexivity.
      + exfalso. cbn [rev] in S'. rewrite <- app_assoc in S'. cbn [app] in S'. rewrite sem_NN in S'; [discriminate|].
        apply operands_joint. rewrite forallb_rev. exact Q.
      + rewrite sem_AfA in S'; [exact S'|]. apply operands_vend; [exact Q|discriminate].
    - rewrite rev_length. lia.
    - rewrite forallb_rev, rev_involutive. auto.
    - rewrite E. cbn [obind]. rewrite sem_operands in H' by (rewrite forallb_rev; exact O').
      destruct rps as [|x rps]; [discriminate|]. destruct x as [r|h| |]; [| |discriminate|discriminate].
      + (* a value *)
        assert (RN : rps = []).
        { destruct rps as [|[y|f| |] rps]; [reflexivity| | |discriminate|discriminate].
          - exfalso. cbn [rev] in H'. rewrite mean_N in H'. rewrite <- !app_assoc in H'. cbn [app] in H'. rewrite (nm_NN (length (rev rps))) in H' by lia. discriminate.
          - exfalso. cbn [map] in F1, F2. destruct rps as [|[y|g| |] rps]; [discriminate F1| |discriminate F1|discriminate|discriminate].
            unfold reduceAfA in F2. cbn [map item_of ic ie class_eqb andb orb asFunction] in F2. destruct (items rps) as [|? [|? ?]]; discriminate F2. }
        subst rps. cbn in H'. injection H' as <-. destruct r; try reflexivity. destruct f; reflexivity.
      + destruct (ff_loop true (fun rps => forallb operand rps = true /\ mean (rev rps) = Some p /\ exists h r, rps = V h :: r)) with (n := Datatypes.S (length (items (V h :: rps)))) (rps := V h :: rps) as (rps2 & E2 & (O2 & H2 & k & r2 & ->) & F3).
        * intros g k rest OK (Q & S' & _). cbn [forallb operand] in *. split; [exact Q|]. split; [|eauto]. cbn [rev] in *. rewrite <- app_assoc in S'. cbn [app] in S'.
          rewrite mean_ff in S'. exact S'.
        * rewrite map_length. lia.
        * eauto.
        * unfold resolveFunctions. rewrite E2. cbn [obind]. destruct r2 as [|y r2].
          -- cbn in H2. injection H2 as <-. cbn. destruct k; reflexivity.
          -- cbn [forallb operand] in O2. destruct y as [a|g| |]; [| |discriminate|discriminate].
             2:{ exfalso. unfold reduceff in F3. cbn [map item_of ic ie class_eqb andb] in F3. destruct r2 as [|[] r2]; try discriminate. }
             assert (R2 : r2 = []).
             { destruct r2 as [|z r2]; [reflexivity|]. exfalso. cbn [rev] in H2. unfold mean in H2.
               rewrite (nm_V (length ((rev r2 ++ [z]) ++ [N a]))) in H2 by lia.
               assert (VN : forall l : list piece, verbs ((l ++ [N a]) ++ [V k]) = None).
               { intros l. rewrite !verbs_app. cbn. destruct (verbs l); reflexivity. }
               rewrite VN in H2. destruct (rev r2) as [|u l]; cbn [app] in *.
               - destruct z; try discriminate.
               - destruct u; try discriminate. specialize (VN (l ++ [z])). rewrite VN in H2. discriminate. }
             subst r2. cbn [rev app] in H2. unfold mean in H2. cbn [nm verbs] in H2. cbn [map item_of].
             destruct k; cbn in H2; try discriminate. cbn [andb]. cbn [negb andb] in H2. destruct (Nat.even (length l)); [|discriminate]. injection H2 as <-. reflexivity.
  Qed.
  (* the result of a statement: a function is assigned by a train of an assignment and the function *)
  Definition statement_item (p : piece) : item D :=
    match p with
    | V (FTrain [EFn (FDer op lo ro); g]) => if String.eqb op assign_op then mkItem (EApp (FDer op lo ro) None g false) verb else item_of p
    | _ => item_of p
    end.
  Lemma finish_ok : forall p ps, Inv p [] ps -> proper p -> finish (items ps) = Ok (Some (statement_item p)).
  Proof.
    intros p ps I NF. pose proof (Inv_nonempty _ _ _ I) as PR. destruct I as (SE & TM & J & _). cbn [app] in *.
    destruct ps as [|w l]; [discriminate|].
    assert (FR : reduce true (items (w :: l)) = Ok [item_of p]).
    { rewrite reduce_open by (auto; discriminate).
      assert (VA := sem_valid _ _ SE). destruct (valid_step _ _ _ VA) as (s & q & G & VA').
      assert (W : operand w = true) by (destruct w; try discriminate; reflexivity).
      assert (s = GCur w) as -> by (destruct w; cbn in G; try discriminate; injection G as <- _; reflexivity).
      assert (SL : S l) by (eapply S_of; [apply le_n|exact W|apply (free_r awkward [w]); exact TM|exact J|exact VA']).
      destruct (resolve_last (Datatypes.S (length (w :: l))) l w ltac:(cbn; lia) W SL) as (l' & O & E & GR).
      rewrite E. cbn [obind]. rewrite map_length. unfold sem in SE. rewrite GR in SE. fold (sem l') in SE.
      pose proof (right_last p l' O SE) as R. destruct (resolveArrays (Datatypes.S (length l')) true (rev (items l'))) as [r| |]; try discriminate.
      cbn [obind] in *. rewrite R. reflexivity. }
    unfold finish. destruct (items (w :: l)) eqn:EI; [discriminate|]. rewrite FR. cbn [obind].
    destruct p as [e|f| |]; try reflexivity; [destruct e; try reflexivity; destruct NF|]. destruct f; try reflexivity.
    match goal with |- context [FTrain ?t] => destruct t as [|g0 t0] end; [reflexivity|]. destruct g0 as [| | |g| | | ]; try reflexivity.
    destruct t0 as [|b [|? ?]]; try (destruct g; reflexivity). destruct g; try reflexivity. cbn. destruct (op =? assign_op)%string; reflexivity.
  Qed.
End Right.
