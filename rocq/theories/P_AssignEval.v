(* P_AssignEval.v -- lemmas on modified, selective and vector assignment. *)
From Verif Require Import Base M_Syntax M_Eval S_Eval P_Eval P_Eval2 P_Eval3 S_AssignEval.
From Coq Require Import String List Lia.
Import ListNotations.
Open Scope list_scope.

Section P.
  Context {D X : Type} (G : lang D X).
  Local Notation value := (value D). Local Notation st := (st D X). Local Notation M := (M D X). Local Notation task := (task D X).
  Local Notation ends := (ends G). Local Notation conv := (conv G). Local Notation evaluates := (evaluates G). Local Notation calls := (calls G).

  Lemma conv_seq {A B} (F : (task -> M value) -> M A) (K : (task -> M value) -> A -> M B) s a s1 o s' : mono F -> (forall a, mono (fun i => K i a)) ->
    conv F s (Ok a) s1 -> conv (fun i => K i a) s1 o s' -> conv (fun i => mbind (F i) (K i)) s o s'.
  Proof. intros HF HK H1 H2. apply conv_bind; [exact HF|exact HK|]. left. exists a, s1. split; assumption. Qed.

  Lemma find_found (s : st) x w h : found s x w h <-> find_env (envs s) x = (w, Some h).
  Proof.
    unfold found. induction (envs s) as [|f e IH]; cbn [find_env].
    - split; [|discriminate]. intros (i & g & o & E & _). destruct i; discriminate.
    - destruct (fget f x) as [v|] eqn:E.
      + split.
        * intros (i & g & o & E1 & E2 & E3 & E4). destruct i as [|i0 i]; cbn in E1; injection E1 as -> ->.
          -- rewrite E4 in E. injection E as ->. subst h. reflexivity.
          -- rewrite (E3 i0 (or_introl eq_refl)) in E. discriminate.
        * intros H. injection H as -> <-. exists [], f, e. repeat split; [intros g []|exact E].
      + rewrite <- IH. split.
        * intros (i & g & o & E1 & E2 & E3 & E4). destruct i as [|i0 i]; cbn in E1; injection E1 as -> ->; [congruence|].
          exists i, g, o. repeat split; try assumption. intros y Hy. apply E3. right. exact Hy.
        * intros (i & g & o & -> & E2 & E3 & E4). exists (f :: i), g, o. repeat split; try assumption. intros y [<-|Hy]; [exact E|apply E3, Hy].
  Qed.
  Lemma find_nowhere (s : st) x : nowhere s x -> find_env (envs s) x = (VNil, None).
  Proof.
    unfold nowhere. induction (envs s) as [|f e IH]; intros H; [reflexivity|]. cbn [find_env]. rewrite (H f (or_introl eq_refl)). apply IH. intros g Hg. apply H. right. exact Hg.
  Qed.
  Lemma upd_split (i : list (frame D)) f o g : upd_height (i ++ f :: o) (length o) g = i ++ g f :: o.
  Proof.
    unfold upd_height. rewrite app_length. cbn [length]. replace (length i + S (length o) - 1 - length o)%nat with (length i) by lia.
    rewrite firstn_app, Nat.sub_diag, firstn_O, app_nil_r, firstn_all, skipn_app, skipn_all, Nat.sub_diag. reflexivity.
  Qed.
  Lemma split_height (e : list (frame D)) h : (h < length e)%nat -> exists i f o, e = i ++ f :: o /\ length o = h.
  Proof.
    intros H. destruct (skipn (length e - 1 - h) e) as [|f o] eqn:E.
    - apply (f_equal (@length _)) in E. rewrite skipn_length in E. cbn in E. lia.
    - exists (firstn (length e - 1 - h) e), f, o. split; [rewrite <- E; symmetry; apply firstn_skipn|].
      apply (f_equal (@length _)) in E. rewrite skipn_length in E. cbn in E. lia.
  Qed.
  Lemma assign_stored (s : st) x v h : (h < length (envs s))%nat -> (match x with Num _ => True | _ => False end) -> isFn v = false ->
    exists s', AssignEnv G x v (Some h) s = (Ok tt, s') /\ stored s x v h s'.
  Proof.
    intros Hh Hx Hv. exists (with_envs s (upd_height (envs s) h (fun f => fset f x v))). split.
    - destruct x; try contradiction. unfold AssignEnv. cbn [isVarname negb]. rewrite Hv. reflexivity.
    - destruct (split_height _ _ Hh) as (i & f & o & E & L). split; [|repeat split]. exists i, f, (fset f x v), o. cbn [envs with_envs]. rewrite E, <- L, upd_split.
      repeat split; [rewrite fget_fset, name_eqb_refl; reflexivity|]. intros y Hy. rewrite fget_fset, name_eqb_neq by congruence. reflexivity.
  Qed.
  Lemma ends_length t s o s' : ends t s o s' -> length (envs s') = length (envs s).
  Proof. intros [n H]. apply interp_names in H. apply H. Qed.

  (* the function call of the arrow *)
  Lemma arrow_call lo l v s o s' : ends (TCall (FDer assign_op lo None) l v) s o s' <-> conv (fun i => assign_call G i lo l v) s o s'.
  Proof. rewrite conv_step. apply conv_ext. intros i s0. cbn [step]. unfold derived_call. rewrite String.eqb_refl. reflexivity. Qed.
  (* the evaluation of the arrow's right argument; the left one is not evaluated *)
  Lemma arrow_app lo l e s v s1 o s' : evaluates e s v s1 -> ends (TCall (FDer assign_op lo None) (option_map VTarget l) v) s1 o s' ->
    ends (TEval (EApp (FDer assign_op lo None) l e false)) s o s'.
  Proof.
    intros He Hc. destruct l as [l|]; cbn [option_map] in Hc; [|apply app_monadic; right; exists v, s1; split; assumption].
    apply conv_step. rewrite (conv_ext G _ (fun i => mbind (i (TEval e)) (fun rv => i (TCall (FDer assign_op lo None) (Some (VTarget l)) rv)))).
    2:{ intros i s0. cbn [step]. unfold eval, call. rewrite String.eqb_refl. unfold mbind, mret. destruct (i (TEval e) s0) as [[[rv| |] sx]|]; reflexivity. }
    apply conv_bind_t; [intros; apply mono_self|]. left. exists v, s1. split; assumption.
  Qed.

  Lemma left_conv (f : func D) l s lv s1 : no_arrow f -> left_arg G l s lv s1 ->
    conv (fun i => match l with
                   | None => mret None
                   | Some l => match f with
                               | FDer op _ _ => if String.eqb op assign_op then mret (Some (VTarget l)) else do v <- eval i l; mret (Some v)
                               | _ => do v <- eval i l; mret (Some v)
                               end
                   end) s (Ok lv) s1.
  Proof.
    intros Hf. destruct l as [l|]; cbn [left_arg]; [|intros [-> ->]; exists 0%nat; reflexivity]. intros (v & -> & H).
    assert (Q : conv (fun i => do v <- eval i l; mret (Some v)) s (Ok (Some v)) s1).
    { eapply conv_seq; [apply mono_self|intros; apply mono_const|exact H|]. apply conv_ret. split; reflexivity. }
    destruct f; try exact Q. cbn in Hf. rewrite (proj2 (String.eqb_neq op assign_op) Hf). exact Q.
  Qed.
  Lemma left_mono (f : func D) l : mono (fun i : task -> M value => match l with
                   | None => mret None
                   | Some l => match f with
                               | FDer op _ _ => if String.eqb op assign_op then mret (Some (VTarget l)) else do v <- eval i l; mret (Some v)
                               | _ => do v <- eval i l; mret (Some v)
                               end
                   end).
  Proof.
    intros a b H. destruct l as [l|]; [|apply le_refl]. assert (Q : le (do v <- eval a l; mret (Some v)) (do v <- eval b l; mret (Some v))) by (apply le_bind; [apply H|intros; apply le_refl]).
    destruct f; try exact Q. destruct (String.eqb op assign_op); [apply le_refl|exact Q].
  Qed.
  Lemma mono_handlers hs pick l r : mono (fun i : task -> M value => try_handlers i hs pick l r).
  Proof. intros a b H. apply le_handlers, H. Qed.
  Lemma mono_select op lo ro l r : mono (fun i : task -> M value => derived_select G i op lo ro l r).
  Proof. intros a b H. apply le_derived_select, H. Qed.
  (* an application whose function is a selection *)
  Lemma select_app (f : func D) l x s w lv s1 (T : (task -> M value) -> option value -> value -> M value) o s2 : no_arrow f ->
    (forall i l r s, T i l r s = match f with FDer op lo ro => derived_select G i op lo ro l r | FPrim p => try_handlers i (l_primitives G p) (fun h => hselect h) l r | _ => mfail end s) ->
    evaluates (EVar x) s w s -> left_arg G l s lv s1 -> conv (fun i => T i lv w) s1 o s2 ->
    ends (TEval (EApp f l (EVar x) true)) s o s2.
  Proof.
    intros Hf HT He Hl Hc. apply conv_step. cbn [step]. unfold eval at 1. cbn [andb].
    assert (Q : conv (fun i => match f with FDer op lo ro => derived_select G i op lo ro lv w | FPrim p => try_handlers i (l_primitives G p) (fun h => hselect h) lv w | _ => mfail end) s1 o s2).
    { eapply conv_ext; [|exact Hc]. intros i s0. symmetry. apply HT. }
    assert (MQ : forall lv w, mono (fun i : task -> M value => match f with FDer op lo ro => derived_select G i op lo ro lv w | FPrim p => try_handlers i (l_primitives G p) (fun h => hselect h) lv w | _ => mfail end)).
    { intros lv0 w0. destruct f; try apply mono_const; [apply mono_handlers|apply mono_select]. }
    eapply (conv_seq (fun i => i (TEval (EVar x)))); [apply mono_self| |exact He|].
    - intros rv. apply mono_bind; [apply left_mono|]. intros lv0. apply MQ.
    - eapply conv_seq; [apply left_mono|intros; apply MQ|apply left_conv; eassumption|]. exact Q.
  Qed.
  Lemma operators_first o1 o o2 k lo ro lo' ro' (s : st) i : (forall g, In g o1 -> oto g (ext s) lo ro = None) -> oto o (ext s) lo ro = Some (lo', ro') ->
    try_operators i (o1 ++ o :: o2) lo ro k s = i (TCode (k o lo' ro')) s.
  Proof.
    intros H1 H2. induction o1 as [|g o1 IH]; cbn [app try_operators]; [rewrite H2; reflexivity|]. rewrite (H1 g (or_introl eq_refl)). apply IH. intros g' Hg. apply H1. right. exact Hg.
  Qed.
  Lemma mark_ends e x s i s' : selection G e x s i s' -> target_name e = Some x /\ ends (TEval (mark e)) s (Ok i) s'.
  Proof.
    induction 1 as [p l x b s w lv s1 h l' r' i s2 He Hl (h1 & h2 & E & N & T) Hc|op lo l x b s w lv s1 lov s2 o lo' ro' i s3 Ho He Hl Hlo (o1 & o2 & E & N & T & M0) Hc|f l e x b s i s1 lv s2 j s3 Hf Hs IH Hl Hc].
    - split; [reflexivity|]. cbn [mark]. apply (select_app (FPrim p) l x s w lv s1 (fun i l r => try_handlers i (l_primitives G p) (fun h => hselect h) l r)); try assumption; [exact Logic.I|reflexivity|].
      destruct Hc as [n Hc]. exists n. rewrite E, (handlers_first h1 h h2 (fun h => hselect h) lv w l' r' s1 _ N T). exact Hc.
    - split; [reflexivity|]. cbn [mark]. apply (select_app (FDer op (Some lo) None) l x s w lv s1 (fun i l r => derived_select G i op (Some lo) None l r)); try assumption; [reflexivity|].
      unfold derived_select. rewrite E in M0 |- *. destruct (o1 ++ o :: o2) as [|o0 os] eqn:Eo; [destruct o1; discriminate|]. rewrite M0. cbn [andb evalOpt].
      eapply (conv_seq (fun i => i (TEval lo))); [apply mono_self| |exact Hlo|].
      + intros a. apply mono_bind; [apply mono_const|]. intros ro a0 b0 HH. apply le_operators, HH.
      + destruct Hc as [n Hc]. exists n. pose proof (operators_first o1 o o2 (fun o lo' ro' => oselect o lv lo' ro' w) lov None lo' ro' s2 (interp G n) N T) as Q. rewrite Eo in Q. etransitivity; [exact Q|exact Hc].
    - destruct IH as [IH1 IH2]. split; [exact IH1|]. cbn [mark]. apply conv_step. cbn [step].
      assert (Q : forall i : task -> M value, forall lv rv s, (if true && match mark e with EVar _ => true | _ => false end then
                match f with
                | FDer op lo ro => derived_select G i op lo ro lv rv
                | FPrim p => try_handlers i (l_primitives G p) (fun h => hselect h) lv rv
                | _ => mfail
                end
              else call i f lv rv) s = i (TCall f lv rv) s). { intros i0 lv0 rv0 s0. inversion Hs; subst; reflexivity. }
      unfold eval at 1. eapply (conv_seq (fun i => i (TEval (mark e)))); [apply mono_self| |exact IH2|].
      + intros rv. apply mono_bind; [apply left_mono|]. intros lv0 a b0 HH s0 r0. rewrite !Q. apply HH.
      + eapply conv_seq; [apply left_mono| |apply left_conv; eassumption|].
        * intros lv0 a b0 HH s0 r0. rewrite !Q. apply HH.
        * destruct Hc as [n Hc]. exists n. rewrite Q. exact Hc.
  Qed.
  Lemma selection_app e x s i s' : selection G e x s i s' -> exists f l r b, e = EApp f l r b.
  Proof. intros H. destruct H; eexists _, _, _, _; reflexivity. Qed.
  Lemma selection_conv e x s i s' : selection G e x s i s' -> conv (fun i => evalAssign i (Some e)) s (Ok (TOne x (Some i))) s'.
  Proof.
    intros H. pose proof (mark_ends _ _ _ _ _ H) as [Hn Hm]. destruct (selection_app _ _ _ _ _ H) as (f & l & r & b & ->). unfold evalAssign. rewrite Hn.
    eapply (conv_seq (fun i => i (TEval (mark (EApp f l r b))))); [apply mono_self|intros; apply mono_const|exact Hm|]. apply conv_ret. split; reflexivity.
  Qed.
  Lemma evalAssign_mono e : mono (fun i : task -> M value => evalAssign i e). Proof. intros a b H. apply le_evalAssign, H. Qed.
  Lemma assignScalar_mono x idx f R : mono (fun i : task -> M value => assignScalar G i x idx f R). Proof. intros a b H. apply le_assignScalar, H. Qed.

  Definition new_value (w : value) (idx : option value) (f : option (func D)) (R : value) : option task :=
    match idx, f with
    | Some i, f => Some (TCode (l_setidx G w i f R))
    | None, Some f => Some (TCall f (Some w) R)
    | None, None => None
    end.
  Lemma scalar_conv x idx f R s w env t o s' : new_value w idx f R = Some t -> LookupEnv G s x = (w, env) -> w <> VNil ->
    conv (fun i => mbind (i t) (fun v => match v with VNil => mret tt | _ => massign G x v env end)) s o s' ->
    conv (fun i => assignScalar G i x idx f R) s o s'.
  Proof.
    intros Ht HL Hw [n H]. exists n. rewrite <- H. unfold assignScalar, new_value in *.
    destruct idx as [i|], f as [f|]; try discriminate; injection Ht as <-; rewrite HL; destruct w; try congruence; reflexivity.
  Qed.
  Lemma after_mono x env : forall a, mono (fun _ : task -> M value => match a with VNil => mret tt | _ => massign G x a env end).
  Proof. intros a. apply mono_const. Qed.
  Lemma scalar_stored x idx f R s w h t u s1 : (match x with Num _ => True | _ => False end) -> new_value w idx f R = Some t -> found s x w h -> w <> VNil ->
    ends t s (Ok u) s1 -> u <> VNil -> isFn u = false -> exists s2, conv (fun i => assignScalar G i x idx f R) s (Ok tt) s2 /\ stored s1 x u h s2.
  Proof.
    intros Hx Ht Hf Hw Hc Hu Hn. assert (HL : LookupEnv G s x = (w, Some h)) by (apply find_found in Hf; destruct x; try contradiction; exact Hf).
    assert (Hh : (h < length (envs s1))%nat). { rewrite (ends_length _ _ _ _ Hc). apply find_found in Hf. eapply find_env_height, Hf. }
    destruct (assign_stored s1 x u h Hh Hx Hn) as (s2 & E & S2). exists s2. split; [|exact S2]. eapply scalar_conv; [exact Ht|exact HL|exact Hw|].
    eapply (conv_seq (fun i => i t)); [apply mono_self|apply after_mono|exact Hc|]. exists 0%nat. destruct u; try congruence; unfold massign; rewrite E; reflexivity.
  Qed.
  Lemma scalar_in_place x idx f R s w h t s1 : (match x with Num _ => True | _ => False end) -> new_value w idx f R = Some t -> found s x w h -> w <> VNil ->
    ends t s (Ok VNil) s1 -> conv (fun i => assignScalar G i x idx f R) s (Ok tt) s1.
  Proof.
    intros Hx Ht Hf Hw Hc. assert (HL : LookupEnv G s x = (w, Some h)) by (apply find_found in Hf; destruct x; try contradiction; exact Hf).
    eapply scalar_conv; [exact Ht|exact HL|exact Hw|]. eapply (conv_seq (fun i => i t)); [apply mono_self|apply after_mono|exact Hc|]. exists 0%nat. reflexivity.
  Qed.
  Lemma scalar_failed x idx f R s w h t o s1 : (match x with Num _ => True | _ => False end) -> new_value w idx f R = Some t -> found s x w h -> w <> VNil ->
    failed o -> ends t s o s1 -> conv (fun i => assignScalar G i x idx f R) s (fmap_fail o) s1.
  Proof.
    intros Hx Ht Hf Hw Ho Hc. assert (HL : LookupEnv G s x = (w, Some h)) by (apply find_found in Hf; destruct x; try contradiction; exact Hf).
    eapply scalar_conv; [exact Ht|exact HL|exact Hw|]. apply conv_bind; [apply mono_self|apply after_mono|]. right. exists o. split; [exact Ho|]. split; [exact Hc|reflexivity].
  Qed.
  Lemma scalar_unknown x idx f R s : (match x with Num _ => True | _ => False end) -> (idx <> None \/ f <> None) -> nowhere s x -> conv (fun i => assignScalar G i x idx f R) s Err s.
  Proof.
    intros Hx Hi Hn. exists 0%nat. assert (HL : LookupEnv G s x = (VNil, None)) by (destruct x; try contradiction; apply find_nowhere, Hn).
    unfold assignScalar. destruct idx, f; try rewrite HL; try reflexivity. destruct Hi; congruence.
  Qed.
End P.
