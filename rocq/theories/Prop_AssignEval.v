(* Prop_AssignEval.v -- modified, selective and vector assignment (C161), and the handlers
   of operators (C60). *)
From Verif Require Import Base M_Syntax M_Eval S_Eval P_Eval P_Eval2 P_Eval3 S_AssignEval P_AssignEval Prop_Eval.
From Coq Require Import String List Lia.
Import ListNotations.
Open Scope list_scope.

Section Props.
  Context {D X : Type} (G : lang D X).
  Local Notation value := (value D). Local Notation st := (st D X). Local Notation M := (M D X). Local Notation task := (task D X).
  Local Notation expr := (expr D). Local Notation func := (func D).
  Local Notation ends := (ends G). Local Notation evaluates := (evaluates G). Local Notation calls := (calls G).

  (* C60, for operators: an operator that accepts the operands is used if no later one of
     the symbol accepts them; the right operand is evaluated before the left one. *)
  Theorem C60_operator op lo l r s lov s1 o lo' ro' out s' : op <> assign_op -> evaluates lo s lov s1 -> takes_operands G op (ext s1) lov None o lo' ro' ->
    (calls (FDer op (Some lo) None) l r s out s' <-> ends (TCode (oderived o lo' ro' l r)) s1 out s').
  Proof.
    intros Ho Hl (o1 & o2 & E & N & T & M0). unfold S_Eval.calls. rewrite conv_step. rewrite E in M0.
    rewrite (conv_ext G _ (fun i => mbind (i (TEval lo)) (fun lv => try_operators i (o1 ++ o :: o2) lv None (fun o lo' ro' => oderived o lo' ro' l r)))).
    2:{ intros i s0. cbn [step]. unfold derived_call. rewrite (proj2 (String.eqb_neq op assign_op) Ho), E. destruct (o1 ++ o :: o2) as [|o0 os] eqn:Eo; [destruct o1; discriminate|]. rewrite M0. reflexivity. }
    rewrite (conv_ok_bind_t G (TEval lo) _ s out s' lov s1); [|intros a i j H; apply le_operators, H|exact Hl].
    split; intros [n H]; exists n; rewrite (operators_first o1 o o2 _ lov None lo' ro' s1 _ N T) in *; exact H.
  Qed.
  Theorem C60_operator_dyadic op lo ro l r s rov s1 lov s2 o lo' ro' out s' : op <> assign_op -> evaluates ro s rov s1 -> evaluates lo s1 lov s2 ->
    takes_operands G op (ext s2) lov (Some rov) o lo' ro' ->
    (calls (FDer op (Some lo) (Some ro)) l r s out s' <-> ends (TCode (oderived o lo' ro' l r)) s2 out s').
  Proof.
    intros Ho Hr Hl (o1 & o2 & E & N & T & M0). unfold S_Eval.calls. rewrite conv_step. rewrite E in M0.
    rewrite (conv_ext G _ (fun i => mbind (i (TEval ro)) (fun rv => mbind (i (TEval lo)) (fun lv => try_operators i (o1 ++ o :: o2) lv (Some rv) (fun o lo' ro' => oderived o lo' ro' l r))))).
    2:{ intros i s0. cbn [step]. unfold derived_call. rewrite (proj2 (String.eqb_neq op assign_op) Ho), E. destruct (o1 ++ o :: o2) as [|o0 os] eqn:Eo; [destruct o1; discriminate|]. rewrite M0. cbn [evalOpt]. unfold eval, mbind, mret.
        destruct (i (TEval ro) s0) as [[[?| |] ?]|]; reflexivity. }
    rewrite (conv_ok_bind_t G (TEval ro) _ s out s' rov s1); [|intros a; apply mono_bind; [apply mono_self|]; intros b i j H; apply le_operators, H|exact Hr].
    rewrite (conv_ok_bind_t G (TEval lo) _ s1 out s' lov s2); [|intros b i j H; apply le_operators, H|exact Hl].
    split; intros [n H]; exists n; rewrite (operators_first o1 o o2 _ lov (Some rov) lo' ro' s2 _ N T) in *; exact H.
  Qed.

  (* C161 *)
  (* X f← e *)
  Definition modify (x : name) (f : func) (e : expr) : expr := EApp (FDer assign_op (Some (EFn f)) None) (Some (EVar x)) e false.
  (* (t)← e and (t) f← e, where t is an expression with the variable at its right end *)
  Definition assign_to (t : expr) (e : expr) : expr := EApp (FDer assign_op (Some t) None) None e false.
  Definition modify_at (t : expr) (f : func) (e : expr) : expr := EApp (FDer assign_op (Some (EFn f)) None) (Some t) e false.
  Definition plain_name (x : name) : Prop := match x with Num _ => True | _ => False end.

  Lemma modify_call x f v s o s' : conv G (fun i => assignScalar G i x None (Some f) v) s o s' ->
    calls (FDer assign_op (Some (EFn f)) None) (Some (VTarget (EVar x))) v s (match o with Ok _ => Ok v | Err => Err | Panic => Panic end) s'.
  Proof.
    intros [n H]. apply arrow_call. exists n. unfold assign_call, evalAssign, mbind, mret in *. cbn [target_name]. rewrite H. destruct o; reflexivity.
  Qed.
  Lemma at_call t x i l lo (f : option func) v s s1 o s' : selection G t x s i s1 -> l = None /\ lo = Some t /\ f = None \/ (exists g, l = Some (VTarget t) /\ lo = Some (EFn g) /\ f = Some g) ->
    conv G (fun n => assignScalar G n x (Some i) f v) s1 o s' ->
    calls (FDer assign_op lo None) l v s (match o with Ok _ => Ok v | Err => Err | Panic => Panic end) s'.
  Proof.
    intros Hs Hc H. apply arrow_call. apply selection_conv in Hs.
    assert (MS : forall a : M_Eval.target, mono (fun i0 : task -> M value => match a with TMany xs => assignVector G i0 xs v f | TOne x idx => do _ <- assignScalar G i0 x idx f v; mret v end)).
    { intros a i0 j0 HH. destruct a; [apply le_bind; [apply le_assignScalar, HH|intros; apply le_refl]|]. unfold assignVector. destruct (match l_asVec G v with Some a => a | None => ([1], [v]) end) as [sh vs].
      destruct sh as [|d [|? ?]]; try apply le_refl. destruct (negb (d =? 1) && negb (d =? zlen xs)); [apply le_refl|].
      destruct (d =? 1); [destruct vs; [apply le_refl|]|]; (apply le_bind; [apply le_assign_each, HH|intros; apply le_refl]). }
    assert (Q : conv G (fun i0 => mbind (evalAssign i0 (Some t)) (fun a => match a with TMany xs => assignVector G i0 xs v f | TOne x idx => do _ <- assignScalar G i0 x idx f v; mret v end)) s
       (match o with Ok _ => Ok v | Err => Err | Panic => Panic end) s').
    { eapply conv_seq; [apply evalAssign_mono|exact MS|exact Hs|]. destruct H as [n H]. exists n. unfold mbind, mret. rewrite H. destruct o; reflexivity. }
    destruct Q as [n Q]. exists n. rewrite <- Q. unfold assign_call, mbind, mret.
    destruct Hc as [(-> & -> & ->)|(g & -> & -> & ->)]; destruct (evalAssign (interp G n) (Some t) s) as [[[?| |] ?]|]; reflexivity.
  Qed.

  (* X f← e: e is evaluated, f is called with the value w of X at this point and the value
     of e, and its result replaces the value of X in the environment where X was found.
     The value of the expression is that of e. *)
  Theorem C161_modified x f e s v s1 w h u s2 : plain_name x -> evaluates e s v s1 -> found s1 x w h -> w <> VNil ->
    calls f (Some w) v s1 (Ok u) s2 -> u <> VNil -> isFn u = false ->
    exists s3, evaluates (modify x f e) s v s3 /\ stored s2 x u h s3.
  Proof.
    intros Hx He Hf Hw Hc Hu Hn. destruct (scalar_stored G x None (Some f) v s1 w h (TCall f (Some w) v) u s2 Hx eq_refl Hf Hw Hc Hu Hn) as (s3 & H & S3).
    exists s3. split; [|exact S3]. apply (arrow_app G (Some (EFn f)) (Some (EVar x)) e s v s1); [exact He|]. exact (modify_call x f v s1 (Ok tt) s3 H).
  Qed.
  Theorem C161_modified_fails x f e s v s1 w h o s2 : plain_name x -> evaluates e s v s1 -> found s1 x w h -> w <> VNil ->
    calls f (Some w) v s1 o s2 -> failed o -> ends (TEval (modify x f e)) s o s2.
  Proof.
    intros Hx He Hf Hw Hc Ho. pose proof (scalar_failed G x None (Some f) v s1 w h (TCall f (Some w) v) o s2 Hx eq_refl Hf Hw Ho Hc) as H.
    apply (arrow_app G (Some (EFn f)) (Some (EVar x)) e s v s1); [exact He|]. apply modify_call in H. destruct Ho as [->| ->]; exact H.
  Qed.
  (* f is not called if there is no X *)
  Theorem C161_modified_unknown x f e s v s1 : plain_name x -> evaluates e s v s1 -> nowhere s1 x -> ends (TEval (modify x f e)) s Err s1.
  Proof.
    intros Hx He Hn. apply (arrow_app G (Some (EFn f)) (Some (EVar x)) e s v s1); [exact He|]. refine (modify_call x f v s1 Err s1 _).
    apply scalar_unknown; [exact Hx|right; discriminate|exact Hn].
  Qed.

  (* (t)←e and (t) f←e: e is evaluated first, then the selection t gives the indexes i; the
     value u that the interpreter's indexed assignment (C21, C22, C101) computes from the
     value w of the variable, i and v is stored where the variable was found. *)
  Theorem C161_selected t x e s v s1 i s2 w h u s3 : plain_name x -> evaluates e s v s1 -> selection G t x s1 i s2 -> found s2 x w h -> w <> VNil ->
    ends (TCode (l_setidx G w i None v)) s2 (Ok u) s3 -> u <> VNil -> isFn u = false ->
    exists s4, evaluates (assign_to t e) s v s4 /\ stored s3 x u h s4.
  Proof.
    intros Hx He Hs Hf Hw Hc Hu Hn. destruct (scalar_stored G x (Some i) None v s2 w h _ u s3 Hx eq_refl Hf Hw Hc Hu Hn) as (s4 & H & S4).
    exists s4. split; [|exact S4]. apply (arrow_app G (Some t) None e s v s1); [exact He|]. apply (at_call t x i None (Some t) None v s1 s2 (Ok tt) s4 Hs); [left; auto|exact H].
  Qed.
  Theorem C161_selected_modified t x f e s v s1 i s2 w h u s3 : plain_name x -> evaluates e s v s1 -> selection G t x s1 i s2 -> found s2 x w h -> w <> VNil ->
    ends (TCode (l_setidx G w i (Some f) v)) s2 (Ok u) s3 -> u <> VNil -> isFn u = false ->
    exists s4, evaluates (modify_at t f e) s v s4 /\ stored s3 x u h s4.
  Proof.
    intros Hx He Hs Hf Hw Hc Hu Hn. destruct (scalar_stored G x (Some i) (Some f) v s2 w h _ u s3 Hx eq_refl Hf Hw Hc Hu Hn) as (s4 & H & S4).
    exists s4. split; [|exact S4]. apply (arrow_app G (Some (EFn f)) (Some t) e s v s1); [exact He|].
    apply (at_call t x i (Some (VTarget t)) (Some (EFn f)) (Some f) v s1 s2 (Ok tt) s4 Hs); [right; exists f; auto|exact H].
  Qed.
  (* A list, a dictionary or a table is changed in place (C21): nothing is stored. *)
  Theorem C161_in_place t x e s v s1 i s2 w h s3 : plain_name x -> evaluates e s v s1 -> selection G t x s1 i s2 -> found s2 x w h -> w <> VNil ->
    ends (TCode (l_setidx G w i None v)) s2 (Ok VNil) s3 -> evaluates (assign_to t e) s v s3.
  Proof.
    intros Hx He Hs Hf Hw Hc. pose proof (scalar_in_place G x (Some i) None v s2 w h _ s3 Hx eq_refl Hf Hw Hc) as H.
    apply (arrow_app G (Some t) None e s v s1); [exact He|]. apply (at_call t x i None (Some t) None v s1 s2 (Ok tt) s3 Hs); [left; auto|exact H].
  Qed.
  Theorem C161_selected_fails t x e s v s1 i s2 w h o s3 : plain_name x -> evaluates e s v s1 -> selection G t x s1 i s2 -> found s2 x w h -> w <> VNil ->
    ends (TCode (l_setidx G w i None v)) s2 o s3 -> failed o -> ends (TEval (assign_to t e)) s o s3.
  Proof.
    intros Hx He Hs Hf Hw Hc Ho. pose proof (scalar_failed G x (Some i) None v s2 w h _ o s3 Hx eq_refl Hf Hw Ho Hc) as H.
    apply (arrow_app G (Some t) None e s v s1); [exact He|]. pose proof (at_call t x i None (Some t) None v s1 s2 _ s3 Hs (or_introl (conj eq_refl (conj eq_refl eq_refl))) H) as H2. destruct Ho as [->| ->]; exact H2.
  Qed.
  (* The function next to the variable must be a primitive or a derived function: a lambda,
     a train or a function variable is an error, and nothing is assigned. *)
  Theorem C161_not_selectable f l x b e s v s1 w lv s2 : plain_name x -> evaluates e s v s1 -> evaluates (EVar x) s1 w s1 -> left_arg G l s1 lv s2 ->
    match f with FPrim _ | FDer _ _ _ => False | _ => True end -> ends (TEval (assign_to (EApp f l (EVar x) b) e)) s Err s2.
  Proof.
    intros Hx He Hv Hl Hf. apply (arrow_app G (Some (EApp f l (EVar x) b)) None e s v s1); [exact He|]. apply arrow_call.
    assert (Q : ends (TEval (EApp f l (EVar x) true)) s1 Err s2).
    { eapply (select_app G f l x s1 w lv s2 (fun _ _ _ => mfail)); [destruct f; try contradiction; exact Logic.I|intros; destruct f; try contradiction; reflexivity|exact Hv|exact Hl|]. apply conv_fail. auto. }
    destruct Q as [n Q]. exists n.
    assert (A : evalAssign (interp G n) (Some (EApp f l (EVar x) b)) s1 = Some (Err, s2)) by (cbn; unfold mbind, eval; rewrite Q; reflexivity).
    cbn [option_map]. unfold assign_call, mbind. rewrite A. reflexivity.
  Qed.

  (* Vector assignment A B C←e: the elements of a vector are assigned in order, each like a
     plain assignment; a scalar or a vector of length 1 is assigned to all. *)
  Definition assign_names (xs : list name) (e : expr) : expr := EApp (FDer assign_op (Some (EArray (map EVar xs))) None) None e false.
  Lemma names_map xs : names (map (@EVar D) xs) = Some xs.
  Proof. induction xs as [|x xs IH]; [reflexivity|]. cbn [map names]. rewrite IH. reflexivity. Qed.
  Lemma each_all xs vs s n : Forall plain_name xs -> Forall (fun v => isFn v = false) vs -> length xs = length vs ->
    assign_each G (interp G n) xs vs None s = Some (Ok tt, assign_all G (combine xs vs) s).
  Proof.
    intros Hx Hv Hl. revert vs Hv Hl s. induction Hx as [|x xs Hx _ IH]; intros [|v vs] Hv Hl s; try discriminate; [reflexivity|]. inversion Hv as [|? ? Hv1 Hv2]; subst.
    cbn [assign_each combine]. unfold assign_all. cbn [fold_left fst snd]. unfold mbind, assignScalar, massign.
    assert (E : exists s1, AssignEnv G x v None s = (Ok tt, s1)). { destruct x; try contradiction. unfold AssignEnv. cbn [isVarname negb]. rewrite Hv1. eexists. reflexivity. }
    destruct E as [s1 E]. rewrite E. cbn [snd]. apply IH; [exact Hv2|]. injection Hl as Hl. exact Hl.
  Qed.
  Theorem C161_vector xs e s v s1 vs : evaluates e s v s1 -> envs s1 <> [] -> Forall plain_name xs -> Forall (fun v => isFn v = false) vs ->
    (l_asVec G v = Some ([zlen vs], vs) /\ length vs = length xs \/
     (exists u, l_asVec G v = Some ([1], [u]) /\ vs = repeat u (length xs)) \/ l_asVec G v = None /\ vs = repeat v (length xs)) ->
    exists s2, evaluates (assign_names xs e) s v s2 /\ (forall x, plain_name x -> Lookup G s2 x = latest x (Lookup G s1 x) (combine xs vs)) /\ tl (envs s2) = tl (envs s1).
  Proof.
    intros He Hn Hx Hv Hc. exists (assign_all G (combine xs vs) s1).
    assert (Hl : length xs = length vs). { destruct Hc as [[_ H]|[(u & _ & ->)|[_ ->]]]; [congruence|symmetry; apply repeat_length..]. }
    split; [|split].
    - apply (arrow_app G (Some (EArray (map EVar xs))) None e s v s1); [exact He|]. apply arrow_call. exists 0%nat.
      assert (A : assignVector G (interp G 0) xs v None s1 = Some (Ok v, assign_all G (combine xs vs) s1)).
      { unfold assignVector. pose proof (each_all xs vs s1 0 Hx Hv Hl) as Q. destruct Hc as [[E H]|[(u & E & ->)|[E ->]]]; rewrite E.
        - assert (Z1 : zlen xs = zlen vs) by (unfold zlen; congruence). rewrite Z1, Z.eqb_refl, Bool.andb_false_r. destruct (zlen vs =? 1)%Z eqn:E1.
          + apply Z.eqb_eq in E1. destruct vs as [|u [|u2 us]]; [discriminate| |rewrite !zlen_cons in E1; pose proof (zlen_nonneg us); lia].
            assert (R : repeat u (length xs) = [u]) by (rewrite <- H; reflexivity). rewrite R. unfold mbind, mret. rewrite Q. reflexivity.
          + unfold mbind, mret. rewrite Q. reflexivity.
        - cbn [Z.eqb Pos.eqb negb andb]. unfold mbind, mret. rewrite Q. reflexivity.
        - cbn [Z.eqb Pos.eqb negb andb]. unfold mbind, mret. rewrite Q. reflexivity. }
      unfold assign_call, evalAssign, mbind, mret in *. rewrite names_map. exact A.
    - intros x Hp. apply C61_latest; [exact Hn|]. destruct x; try contradiction; exact Logic.I.
    - assert (Q : forall l s, Forall (fun xv => plain_name (fst xv) /\ isFn (snd xv) = false) l -> tl (envs (assign_all G l s)) = tl (envs s)).
      { clear. intros l s H. revert s. induction H as [|[x v] l [H1 H2] _ IH]; intros s; [reflexivity|]. unfold assign_all. cbn [fold_left fst snd] in *. unfold assign_all in IH. rewrite IH.
        destruct x; try contradiction. unfold AssignEnv. cbn [isVarname negb]. rewrite H2. cbn [andb snd envs with_envs]. rewrite upd_height_top. destruct (envs s); reflexivity. }
      apply Q. clear -Hx Hv. revert vs Hv. induction Hx as [|x xs Hx _ IH]; intros [|v vs] Hv; cbn [combine]; try constructor; inversion Hv; subst; [split; assumption|apply IH; assumption].
  Qed.
  (* a vector of another length: nothing is assigned *)
  Theorem C161_vector_length xs e s v s1 n vs : evaluates e s v s1 -> l_asVec G v = Some ([n], vs) -> n <> 1%Z -> n <> zlen xs -> ends (TEval (assign_names xs e)) s Err s1.
  Proof.
    intros He E N1 N2. apply (arrow_app G (Some (EArray (map EVar xs))) None e s v s1); [exact He|]. apply arrow_call. exists 0%nat.
    assert (A : assignVector G (interp G 0) xs v None s1 = Some (Err, s1)).
    { unfold assignVector. rewrite E, (proj2 (Z.eqb_neq n 1) N1), (proj2 (Z.eqb_neq n (zlen xs)) N2). reflexivity. }
    unfold assign_call, evalAssign, mbind, mret in *. rewrite names_map. exact A.
  Qed.
End Props.

(* A small language for the examples: numbers and vectors.  The primitive - subtracts, and
   ↓ drops the first element; both select, and reverse reverses but is used on indexes only.
   The setter replaces the elements at the indexes by one value, or by f of both. *)
Inductive dat := One (z : Z) | Vec (l : list Z).
Definition dh (c : option Z -> dat -> outcome dat) (sel : dat -> outcome dat) : handler dat unit :=
  mkHandler (fun _ l r => match l, r with None, VD _ => Some (l, r) | Some (VD (One _)), VD _ => Some (l, r) | _, _ => None end)
    (fun l r => match r with VD r => CRet (let* d := c (match l with Some (VD (One l)) => Some l | _ => None end) r in Ok (VD d)) | _ => CRet Err end)
    (fun l r => match r with VD r => CRet (let* d := sel r in Ok (VD d)) | _ => CRet Err end).
Definition d_history : list (string * handler dat unit) :=
  [("-"%string, dh (fun l r => match l, r with Some l, One r => Ok (One (l - r)) | None, One r => Ok (One (- r)) | _, _ => Err end) (fun _ => Err));
   ("drop"%string, dh (fun _ r => match r with Vec l => Ok (Vec (tl l)) | _ => Err end) (fun r => match r with Vec l => Ok (Vec (tl (zseq (zlen l)))) | _ => Err end));
   ("first"%string, dh (fun _ r => match r with Vec (z :: _) => Ok (Vec [z]) | _ => Err end) (fun r => match r with Vec (_ :: _) => Ok (Vec [0%Z]) | _ => Err end))].
Fixpoint d_set (l idx : list Z) (v : Z) : outcome (list Z) :=
  match idx with [] => Ok l | i :: idx' => if (0 <=? i)%Z && (i <? zlen l)%Z then d_set (zupd l i v) idx' v else Err end.
Definition d_lang : lang dat unit :=
  mkLang (registered d_history) (fun _ => []) (fun _ _ _ => CRet Err) (Vec []) (fun d => match d with Vec _ => true | _ => false end) (fun _ => Vec []) (fun _ => None)
    One (fun v => match v with VD (Vec l) => Some ([zlen l], map (fun z => VD (One z)) l) | _ => None end)
    (fun w i f R => match w, i, R with VD (Vec l), VD (Vec idx), VD (One z) => CRet (let* l' := d_set l idx z in Ok (VD (Vec l'))) | _, _, _ => CRet Err end)
    (fun _ => One 0) (fun _ x => Ok x) (fun _ => true).
(* inside a lambda; A and N belong to the caller *)
Definition d0 : st dat unit := mkSt [[(Omega, VD (One 5%Z))]; [(Num "A", VD (Vec [1; 2; 3; 4]%Z)); (Num "N", VD (One 10%Z))]] [] 1 [] tt.
Definition A_ : expr dat := EVar (Num "A").
(* N-←3: the N of the caller is 7 *)
Example C161_example_modified : exists s3, evaluates d_lang (modify (Num "N") (FPrim "-") (EConst (One 3%Z))) d0 (VD (One 3%Z)) s3 /\ stored d0 (Num "N") (VD (One 7%Z)) 0 s3.
Proof.
  apply (C161_modified d_lang (Num "N") (FPrim "-") (EConst (One 3%Z)) d0 (VD (One 3%Z)) d0 (VD (One 10%Z)) 0 (VD (One 7%Z)) d0); try discriminate; try exact Logic.I; try reflexivity.
  - exists 2%nat. reflexivity.
  - apply find_found. reflexivity.
  - exists 3%nat. vm_compute. reflexivity.
Qed.
(* (drop drop A)←9: the inner drop gives the indexes 1 2 3, the outer drop 2 3 of these *)
Example C161_example_selected : exists s4, evaluates d_lang (assign_to (EApp (FPrim "drop") None (EApp (FPrim "drop") None A_ false) false) (EConst (One 9%Z))) d0 (VD (One 9%Z)) s4 /\
  stored d0 (Num "A") (VD (Vec [1; 2; 9; 9]%Z)) 0 s4.
Proof.
  apply (C161_selected d_lang _ (Num "A") (EConst (One 9%Z)) d0 (VD (One 9%Z)) d0 (VD (Vec [2; 3]%Z)) d0 (VD (Vec [1; 2; 3; 4]%Z)) 0 (VD (Vec [1; 2; 9; 9]%Z)) d0); try discriminate; try exact Logic.I; try reflexivity.
  - exists 2%nat. reflexivity.
  - eapply (sel_outer d_lang _ None _ _ _ d0 (VD (Vec [1; 2; 3]%Z)) d0 None d0); [exact Logic.I| |split; reflexivity|exists 3%nat; vm_compute; reflexivity].
    eapply (sel_primitive d_lang "drop" None (Num "A") false d0 (VD (Vec [1; 2; 3; 4]%Z)) None d0); [exists 2%nat; reflexivity|split; reflexivity| |].
    + exists [], []. split; [vm_compute; reflexivity|]. split; [intros g []|reflexivity].
    + exists 2%nat. vm_compute. reflexivity.
  - apply find_found. reflexivity.
  - exists 3%nat. vm_compute. reflexivity.
Qed.
Example C161_example_vector : exists s2, evaluates d_lang (assign_names [Num "P"; Num "Q"; Num "P"] (EVar (Num "A"))) (mkSt [[(Num "A", VD (Vec [4; 5; 6]%Z))]] [] 1 [] tt) (VD (Vec [4; 5; 6]%Z)) s2 /\
  Lookup d_lang s2 (Num "P") = VD (One 6%Z) /\ Lookup d_lang s2 (Num "Q") = VD (One 5%Z).
Proof. eexists. split; [exists 4%nat; reflexivity|]. split; reflexivity. Qed.

Print Assumptions C60_operator. Print Assumptions C60_operator_dyadic. Print Assumptions C161_modified. Print Assumptions C161_modified_fails. Print Assumptions C161_modified_unknown.
Print Assumptions C161_selected. Print Assumptions C161_selected_modified. Print Assumptions C161_in_place. Print Assumptions C161_selected_fails. Print Assumptions C161_not_selectable. Print Assumptions C161_vector. Print Assumptions C161_vector_length.
