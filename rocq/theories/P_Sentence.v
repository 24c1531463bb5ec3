(* P_Sentence.v -- the parser reads sentences correctly. *)
From Verif Require Import Base M_Scan M_Syntax M_Parse S_Parse P_Parse.
From Coq Require Import String List Bool Arith Lia.
Import ListNotations.
Open Scope nat_scope.
Open Scope list_scope.

Section Sentences.
  Context {D : Type}.
  Local Notation expr := (expr D).
  Local Notation func := (func D).
  Local Notation piece := (piece D).

  Definition item_of (p : piece) : item D :=
    match p with
    | N e => mkItem e noun | V f => mkItem (EFn f) verb
    | Mop op => mkItem (EFn (FDer op None None)) adverb
    | Dop op => mkItem (EFn (FDer op None None)) conjunction
    end.
  Lemma ie_item : forall p, ie (item_of p) = as_expr p.
  Proof. destruct p; reflexivity. Qed.
  Lemma is_op_item : forall p, is_op (ic (item_of p)) = negb (operand p).
  Proof. destruct p; reflexivity. Qed.

  (* ---------- words as an automaton ---------- *)
  Inductive gstate := GNone | GCur (w : piece) | GConj (w : piece) (op : string).
  Definition der1 (op : string) (w : piece) : piece := V (FDer op (Some (as_expr w)) None).
  Definition der2 (op : string) (w x : piece) : piece := V (FDer op (Some (as_expr w)) (Some (as_expr x))).
  Definition gstep (s : gstate) (x : piece) : option (gstate * list piece) :=
    match s, x with
    | GNone, N _ | GNone, V _ => Some (GCur x, [])
    | GCur w, N _ | GCur w, V _ => Some (GCur x, [w])
    | GCur w, Mop op => Some (GCur (der1 op w), [])
    | GCur w, Dop op => Some (GConj w op, [])
    | GConj w op, N _ | GConj w op, V _ => Some (GCur (der2 op w x), [])
    | _, _ => None
    end.
  Fixpoint grun (s : gstate) (l : list piece) : option (gstate * list piece) :=
    match l with
    | [] => Some (s, [])
    | x :: l' => match gstep s x with
                 | None => None
                 | Some (s', w) => match grun s' l' with None => None | Some (s'', ws) => Some (s'', w ++ ws) end
                 end
    end.
  Definition gend (r : option (gstate * list piece)) : option (list piece) :=
    match r with Some (GNone, ws) => Some ws | Some (GCur w, ws) => Some (ws ++ [w]) | _ => None end.
  Definition group (l : list piece) : option (list piece) := gend (grun GNone l).

  Lemma grun_app : forall a b s, grun s (a ++ b) =
    match grun s a with None => None | Some (s', ws) => match grun s' b with None => None | Some (s'', ws') => Some (s'', ws ++ ws') end end.
  Proof.
    induction a as [|x a IH]; intros b s; cbn [app grun].
    - destruct (grun s b) as [[? ?]|]; reflexivity.
    - destruct (gstep s x) as [[s' w]|]; [|reflexivity]. rewrite IH. destruct (grun s' a) as [[s'' ws]|]; [|reflexivity].
      destruct (grun s'' b) as [[? ?]|]; [|reflexivity]. rewrite app_assoc. reflexivity.
  Qed.
  Definition before (s : gstate) : list piece := match s with GCur w => [w] | _ => [] end.
  Lemma gstep_operand : forall s x, operand x = true -> (forall w op, s <> GConj w op) -> gstep s x = Some (GCur x, before s).
  Proof. intros s x X S. destruct s, x; try discriminate; try reflexivity; exfalso; eapply S; reflexivity. Qed.
  Lemma word_grun : forall l w, word l w -> forall s, (forall w op, s <> GConj w op) -> grun s l = Some (GCur w, before s).
  Proof.
    induction 1 as [x X|l w op W IH|l w op x W IH X]; intros s S.
    - cbn [grun]. rewrite gstep_operand by assumption. rewrite app_nil_r. reflexivity.
    - rewrite grun_app, IH by assumption. cbn. rewrite app_nil_r. reflexivity.
    - rewrite grun_app, IH by assumption. cbn [grun gstep]. destruct x; try discriminate; cbn; rewrite app_nil_r; reflexivity.
  Qed.
  Lemma words_group : forall l ws, words l ws -> forall s, (forall w op, s <> GConj w op) -> gend (grun s l) = Some (before s ++ ws).
  Proof.
    induction 1 as [|a w b ws W H IH]; intros s S.
    - cbn [grun gend]. destruct s; cbn; [reflexivity|reflexivity|exfalso; eapply S; reflexivity].
    - rewrite grun_app, (word_grun _ _ W) by assumption. specialize (IH (GCur w) ltac:(discriminate)).
      destruct (grun (GCur w) b) as [[s' ws']|]; [|discriminate]. cbn [gend] in *. destruct s'; [| |discriminate]; injection IH as IH; f_equal; rewrite <- ?app_assoc; rewrite IH; reflexivity.
  Qed.
  Lemma words_ok : forall l ws, words l ws -> group l = Some ws.
  Proof. intros l ws H. unfold group. rewrite (words_group _ _ H); [reflexivity|discriminate]. Qed.

  (* the state after an operand or a monadic operator *)
  Definition joint (a : list piece) : Prop := forall a' op, a <> a' ++ [Dop op].
  Lemma joint_nil : joint [].
  Proof. intros a' op E. destruct a'; discriminate. Qed.
  Lemma joint_operand : forall a x, operand x = true -> joint (a ++ [x]).
  Proof. intros a x X a' op E. apply app_inj_tail in E. destruct E as [_ ->]. discriminate. Qed.
  Lemma joint_state : forall a s ws, joint a -> grun GNone a = Some (s, ws) -> forall w op, s <> GConj w op.
  Proof.
    intros a s ws J E w op ->. destruct a as [|x a] using rev_ind; [discriminate|]. clear IHa.
    rewrite grun_app in E. destruct (grun GNone a) as [[s' ws']|]; [|discriminate]. cbn [grun] in E.
    destruct (gstep s' x) as [[s'' w']|] eqn:G; [|discriminate]. injection E as -> _.
    destruct s', x; try discriminate. apply (J a op0). reflexivity.
  Qed.
  Lemma group_mop : forall a x op b, joint a -> operand x = true -> group (a ++ x :: Mop op :: b) = group (a ++ der1 op x :: b).
  Proof.
    intros a x op b J X. unfold group. rewrite !grun_app. destruct (grun GNone a) as [[s ws]|] eqn:E; [|reflexivity].
    pose proof (joint_state _ _ _ J E) as S. cbn [grun]. rewrite (gstep_operand s x) by assumption. rewrite (gstep_operand s (der1 op x)) by (auto; reflexivity).
    cbn [gstep]. destruct (grun (GCur (der1 op x)) b) as [[? ?]|]; reflexivity.
  Qed.
  Lemma group_dop : forall a x op y b, joint a -> operand x = true -> operand y = true -> group (a ++ x :: Dop op :: y :: b) = group (a ++ der2 op x y :: b).
  Proof.
    intros a x op y b J X Y. unfold group. rewrite !grun_app. destruct (grun GNone a) as [[s ws]|] eqn:E; [|reflexivity].
    pose proof (joint_state _ _ _ J E) as S. cbn [grun]. rewrite (gstep_operand s x) by assumption. rewrite (gstep_operand s (der2 op x y)) by (auto; reflexivity).
    cbn [gstep]. destruct y; try discriminate; destruct (grun (GCur (der2 op x _)) b) as [[? ?]|]; reflexivity.
  Qed.
  Lemma group_operands : forall l, forallb operand l = true -> group l = Some l.
  Proof.
    intros l H. unfold group. 
    assert (X : forall l s, (forall w op, s <> GConj w op) -> forallb operand l = true -> gend (grun s l) = Some (before s ++ l)).
    { clear. induction l as [|x l IH]; intros s S F.
      - destruct s; cbn; [reflexivity|reflexivity|exfalso; eapply S; reflexivity].
      - cbn [forallb] in F. apply andb_prop in F. destruct F as [F1 F2]. cbn [grun]. rewrite gstep_operand by assumption.
        specialize (IH (GCur x) ltac:(discriminate) F2). destruct (grun (GCur x) l) as [[s' ws']|]; [|discriminate].
        cbn [gend] in *. destruct s'; [| |discriminate]; injection IH as IH; f_equal; rewrite <- ?app_assoc, IH; reflexivity. }
    rewrite X; [reflexivity|discriminate|exact H].
  Qed.
  (* the words, when the sentence ends with operands *)
  Lemma group_tail : forall a b, joint a -> forallb operand b = true -> b <> [] ->
    forall ws, group (a ++ b) = Some ws -> exists s ws', grun GNone a = Some (s, ws') /\ ws = ws' ++ before s ++ b.
  Proof.
    intros a b J B NE ws H. unfold group in H. rewrite grun_app in H. destruct (grun GNone a) as [[s ws']|] eqn:E; [|discriminate].
    exists s, ws'. split; [reflexivity|]. pose proof (joint_state _ _ _ J E) as S.
    assert (X : forall l s, (forall w op, s <> GConj w op) -> forallb operand l = true -> exists s' r, grun s l = Some (s', r) /\ gend (Some (s', r)) = Some (before s ++ l)).
    { clear. induction l as [|x l IH]; intros s S F.
      - exists s, []. split; [reflexivity|]. destruct s; cbn; [reflexivity|reflexivity|exfalso; eapply S; reflexivity].
      - cbn [forallb] in F. apply andb_prop in F. destruct F as [F1 F2]. cbn [grun]. rewrite gstep_operand by assumption.
        destruct (IH (GCur x) ltac:(discriminate) F2) as (s' & r & E & R). rewrite E. exists s', (before s ++ r). split; [reflexivity|].
        cbn [gend] in *. destruct s'; [| |discriminate]; injection R as R; f_equal; rewrite <- ?app_assoc, R; reflexivity. }
    destruct (X b s S B) as (s' & r & E1 & R). rewrite E1 in H. cbn [gend] in *. destruct s'; [| |discriminate]; injection R as R; injection H as <-.
    - rewrite <- R. reflexivity.
    - rewrite <- app_assoc, R. reflexivity.
  Qed.
  Lemma group_tail_eq : forall a b s ws', joint a -> forallb operand b = true -> b <> [] -> grun GNone a = Some (s, ws') ->
    group (a ++ b) = Some (ws' ++ before s ++ b).
  Proof.
    intros a b s ws' J B NE E. unfold group. rewrite grun_app, E. pose proof (joint_state _ _ _ J E) as S.
    assert (X : forall l s, (forall w op, s <> GConj w op) -> forallb operand l = true -> exists s' r, grun s l = Some (s', r) /\ gend (Some (s', r)) = Some (before s ++ l)).
    { clear. induction l as [|x l IH]; intros s S F.
      - exists s, []. split; [reflexivity|]. destruct s; cbn; [reflexivity|reflexivity|exfalso; eapply S; reflexivity].
      - cbn [forallb] in F. apply andb_prop in F. destruct F as [F1 F2]. cbn [grun]. rewrite gstep_operand by assumption.
        destruct (IH (GCur x) ltac:(discriminate) F2) as (s' & r & E & R). rewrite E. exists s', (before s ++ r). split; [reflexivity|].
        cbn [gend] in *. destruct s'; [| |discriminate]; injection R as R; f_equal; rewrite <- ?app_assoc, R; reflexivity. }
    destruct (X b s S B) as (s' & r & E1 & R). rewrite E1. cbn [gend] in *. destruct s'; [| |discriminate]; injection R as R; f_equal.
    - rewrite R. reflexivity.
    - rewrite <- app_assoc, R. reflexivity.
  Qed.
  (* the last word before new operands, after a verb or a monadic operator, is a verb *)
  Lemma state_verb : forall a x s ws, (exists f, x = V f) \/ (exists op, x = Mop op) -> grun GNone (a ++ [x]) = Some (s, ws) -> exists f, s = GCur (V f).
  Proof.
    intros a x s ws X E. rewrite grun_app in E. destruct (grun GNone a) as [[s' ws']|]; [|discriminate]. cbn [grun] in E.
    destruct X as [[f ->]|[op ->]]; destruct s'; cbn in E; try discriminate; injection E as <- _; eexists; reflexivity.
  Qed.

  (* ---------- meaning of words ---------- *)
  Fixpoint nm (l : list piece) : option expr :=
    match l with
    | [N e] => Some e
    | V f :: l' => match nm l' with Some e => Some (EApp f None e false) | None => None end
    | N a :: (V f :: l') => match nm l' with Some e => Some (EApp f (Some a) e false) | None => None end
    | _ => None
    end.
  Fixpoint flatt (fs : list func) : list expr :=
    match fs with
    | [] => []
    | [FTrain t] => t
    | f :: fs' => EFn f :: flatt fs'
    end.
  Fixpoint verbs (l : list piece) : option (list func) :=
    match l with
    | [] => Some []
    | V f :: l' => match verbs l' with Some fs => Some (f :: fs) | None => None end
    | _ => None
    end.
  Definition vmean (fs : list func) : option func :=
    match fs with [] => None | [f] => Some f | _ => Some (FTrain (flatt fs)) end.
  Definition mean (ws : list piece) : option piece :=
    match nm ws with
    | Some e => Some (N e)
    | None =>
        match ws with
        | N a :: r => match verbs r with
                      | Some fs => if negb (match fs with [] => true | _ => false end) && Nat.even (length (flatt fs)) then Some (V (FTrain (a :: flatt fs))) else None
                      | None => None
                      end
        | _ => match verbs ws with Some fs => option_map V (vmean fs) | None => None end
        end
    end.
  Definition sem (l : list piece) : option piece := match group l with Some ws => mean ws | None => None end.

  Lemma nm_value : forall l e, value_of l e -> nm l = Some e.
  Proof.
    induction 1 as [e|f l e H IH|a f l e H IH]; [reflexivity|cbn [nm]; rewrite IH; reflexivity|].
    cbn [nm]. rewrite IH. reflexivity.
  Qed.
  Lemma verbs_map : forall fs, verbs (map V fs) = Some fs.
  Proof. induction fs as [|f fs IH]; [reflexivity|]. cbn. rewrite IH. reflexivity. Qed.
  Lemma verbs_inv : forall l fs, verbs l = Some fs -> l = map V fs.
  Proof.
    induction l as [|x l IH]; intros fs H; cbn in H; [injection H as <-; reflexivity|].
    destruct x; try discriminate. destruct (verbs l) as [fs'|]; [|discriminate]. injection H as <-. cbn. f_equal. apply IH. reflexivity.
  Qed.
  Lemma nm_last : forall l e, nm l = Some e -> exists a n, l = a ++ [N n].
  Proof.
    intros l. assert (X : forall n l, length l <= n -> forall e, nm l = Some e -> exists a n, l = a ++ [N n]).
    { clear. induction n as [|n IH]; intros l L e H; [destruct l; [discriminate|cbn in L; lia]|].
      destruct l as [|x l]; [discriminate|]. cbn in L. destruct x as [x|f| |]; try discriminate.
      - destruct l as [|y l]; [exists [], x; reflexivity|]. cbn [nm] in H. destruct y as [|g| |]; try discriminate.
        destruct (nm l) as [e'|] eqn:E; [|discriminate]. destruct (IH l ltac:(cbn in L; lia) _ E) as (a & m & ->).
        exists (N x :: V g :: a), m. reflexivity.
      - cbn [nm] in H. destruct (nm l) as [e'|] eqn:E; [|discriminate]. destruct (IH l ltac:(lia) _ E) as (a & m & ->).
        exists (V f :: a), m. reflexivity. }
    intros e H. eapply X; [apply le_n|exact H].
  Qed.
  Lemma nm_verbs : forall fs, nm (map V fs) = None.
  Proof.
    intros fs. destruct (nm (map V fs)) as [e|] eqn:E; [|reflexivity]. exfalso. apply nm_last in E. destruct E as (a & n & E).
    assert (In (N n) (map V fs)) by (rewrite E; apply in_or_app; right; left; reflexivity). apply in_map_iff in H. destruct H as (f & F & _). discriminate.
  Qed.
  Lemma nm_fork : forall a fs, fs <> [] -> nm (N a :: map V fs) = None.
  Proof.
    intros a fs NE. destruct (nm (N a :: map V fs)) as [e|] eqn:E; [|reflexivity]. exfalso. destruct fs as [|f fs]; [congruence|].
    cbn [map nm] in E. rewrite nm_verbs in E. discriminate.
  Qed.
  Lemma tl_plain : forall fs, (forall t, last fs (FSelf) <> FTrain t) -> flatt fs = map EFn fs.
  Proof.
    induction fs as [|f fs IH]; intros H; [reflexivity|]. destruct fs as [|g fs].
    - cbn in *. destruct f; try reflexivity. exfalso. eapply H. reflexivity.
    - change (flatt (f :: g :: fs)) with (match f with FTrain _ => EFn f :: flatt (g :: fs) | _ => EFn f :: flatt (g :: fs) end).
      rewrite IH by exact H. destruct f; reflexivity.
  Qed.
  Lemma tl_cons : forall f g fs, flatt (f :: g :: fs) = EFn f :: flatt (g :: fs).
  Proof. intros f g fs. destruct f; reflexivity. Qed.

  Lemma sentence_sem : forall ps p, sentence ps p -> (forall a t, a <> [] -> ps <> a ++ [V (FTrain t)]) -> sem ps = Some p.
  Proof.
    intros ps p H NT.
    assert (LT : forall fs a, words ps (a ++ map V fs) -> 2 <= length fs -> forall t, last fs FSelf <> FTrain t).
    { intros fs a W L t E. destruct fs as [|f fs] using rev_ind; [cbn in L; lia|]. clear IHfs. rewrite last_last in E. subst f.
      rewrite map_app in W. cbn [map] in W. rewrite app_assoc in W.
      (* the last word is a train, so the last piece is *)
      assert (X : forall ps ws, words ps ws -> forall ws', ws = ws' ++ [V (FTrain t)] -> exists a, ps = a ++ [V (FTrain t)] /\ (ws' <> [] -> a <> [])).
      { clear. induction 1 as [|a w b ws W H IH]; intros ws' E; [destruct ws'; discriminate|].
        destruct ws' as [|w' ws'].
        - cbn in E. injection E as -> ->. inversion H. subst. rewrite app_nil_r. inversion W; subst. exists []. split; [reflexivity|congruence].
        - cbn in E. injection E as -> ->. destruct (IH ws' eq_refl) as (c & -> & _). exists (a ++ c). rewrite app_assoc. split; [reflexivity|].
          intros _. inversion W; subst; intros X; apply app_eq_nil in X; destruct X as [X _]; try discriminate; apply app_eq_nil in X; destruct X as [_ X]; discriminate. }
      destruct (X _ _ W _ eq_refl) as (c & E & NE). eapply NT; [|exact E]. apply NE.
      destruct fs; [cbn in L; lia|]. destruct a; discriminate. }
    unfold sem. destruct H as [ps ws e W H|ps f W|ps fs W L|ps a fs W L EV]; rewrite (words_ok _ _ W); unfold mean.
    - rewrite (nm_value _ _ H). reflexivity.
    - reflexivity.
    - rewrite nm_verbs. rewrite verbs_map. destruct fs as [|f [|g fs]]; cbn in L; try lia. cbn [map vmean option_map].
      rewrite tl_plain; [reflexivity|]. apply (LT _ []); [exact W|cbn; lia].
    - rewrite nm_fork by (destruct fs; [cbn in L; lia|discriminate]). rewrite verbs_map.
      rewrite tl_plain by (apply (LT _ [N a]); assumption). rewrite map_length, EV. destruct fs; [cbn in L; lia|]. reflexivity.
  Qed.
End Sentences.
