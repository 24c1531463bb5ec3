(* Prop_Program.v -- programs: statements in order (C97), what can be assigned (C96), the variables ⎕ and ⎕IO (C98),
   assignment to several variables (C99). *)
From Verif Require Import Base M_Syntax M_Eval S_Eval P_Eval P_Eval2 P_Eval3 Prop_Eval.
From Coq Require Import String List Lia.
Import ListNotations.
Open Scope list_scope.

Section Props.
  Context {D X : Type} (G : lang D X).
  Local Notation value := (value D). Local Notation st := (st D X).
  Local Notation expr := (expr D). Local Notation func := (func D).
  Local Notation ends := (ends G). Local Notation evaluates := (evaluates G). Local Notation calls := (calls G).

  (* ---------- C97 ---------- *)
  (* the value of a statement is printed unless it is an assignment *)
  Definition printed (e : expr) (v : value) (s : st) : st :=
    if isAssign e then s else mkSt (envs s) (pkgs s) (origin s) (out s ++ [v]) (ext s).
  (* the statements of a program, one after the other; it ends at the first one that fails *)
  Inductive runs : list expr -> st -> outcome unit -> st -> Prop :=
  | run_end s : runs [] s (Ok tt) s
  | run_statement e p s v s1 o s' : evaluates e s v s1 -> (isAssign e = true \/ v <> VNil) -> runs p (printed e v s1) o s' -> runs (e :: p) s o s'
  | run_failed e p s o s1 : ends (TEval e) s o s1 -> failed o -> runs (e :: p) s Err s1
  | run_nothing e p s s1 : evaluates e s VNil s1 -> isAssign e = false -> runs (e :: p) s Err s1.

  Lemma prog_mono n m p : (n <= m)%nat -> le (eval_prog G n p) (eval_prog G m p).
  Proof.
    intros H. induction p as [|e p IH]; cbn [eval_prog]; [apply le_refl|]. apply le_bind; [apply interp_mono, H|]. intros v. apply le_bind; [apply le_refl|]. intros _. exact IH.
  Qed.
  Theorem C97_statements p s o s' : (exists n, Eval G n p s = Some (o, s')) <-> runs p s o s'.
  Proof.
    split.
    - intros [n H]. unfold Eval in H. revert s o s' H. induction p as [|e p IH]; intros s o s' H; cbn [eval_prog] in H.
      + injection H as <- <-. constructor.
      + unfold mbind at 1 in H. destruct (interp G n (TEval e) s) as [[[v| |] s1]|] eqn:E; try discriminate.
        * unfold mbind in H. destruct (isAssign e) eqn:A.
          -- cbn [mret] in H. eapply run_statement; [exists n; exact E|auto|]. unfold printed. rewrite A. apply IH, H.
          -- assert (Hv : v = VNil \/ v <> VNil) by (destruct v; auto; right; discriminate). destruct Hv as [->|Hv].
             ++ injection H as <- <-. apply run_nothing; [exists n; exact E|exact A].
             ++ eapply run_statement; [exists n; exact E|auto|]. unfold printed. rewrite A. apply IH. destruct v; try congruence; exact H.
        * injection H as <- <-. eapply run_failed; [exists n; exact E|left; reflexivity].
        * injection H as <- <-. eapply run_failed; [exists n; exact E|right; reflexivity].
    - induction 1 as [s|e p s v s1 o s' [n1 E] Hv _ [n2 IH]|e p s o s1 [n E] [-> | ->]|e p s s1 [n E] A].
      + exists 0%nat. reflexivity.
      + exists (n1 + n2)%nat. unfold Eval in *. cbn [eval_prog]. unfold mbind at 1. rewrite (interp_mono G n1 (n1 + n2) _ ltac:(lia) _ _ E). unfold mbind.
        assert (IH' : match eval_prog G (n1 + n2) p (printed e v s1) with Some (Panic, s'0) => Some (Err, s'0) | r => r end = Some (o, s')).
        { destruct (eval_prog G n2 p (printed e v s1)) as [r|] eqn:Er; [|discriminate]. rewrite (prog_mono n2 (n1 + n2) p ltac:(lia) _ _ Er). exact IH. }
        unfold printed in IH'. destruct (isAssign e); [exact IH'|]. destruct Hv as [Hv|Hv]; [discriminate|]. destruct v; try congruence; exact IH'.
      + exists n. unfold Eval. cbn [eval_prog]. unfold mbind at 1. rewrite E. reflexivity.
      + exists n. unfold Eval. cbn [eval_prog]. unfold mbind at 1. rewrite E. reflexivity.
      + exists n. unfold Eval. cbn [eval_prog]. unfold mbind at 1. rewrite E. unfold mbind. rewrite A. reflexivity.
  Qed.
  (* a program never ends with a panic *)
  Theorem C97_no_panic p s o s' : runs p s o s' -> o <> Panic.
  Proof. induction 1; auto; discriminate. Qed.
  (* every run of a program ends the same way *)
  Theorem C97_deterministic p s o s' : runs p s o s' -> forall o2 s2, runs p s o2 s2 -> o2 = o /\ s2 = s'.
  Proof.
    intros H o2 s2 H2. apply C97_statements in H as [n H]. apply C97_statements in H2 as [m H2]. unfold Eval in *.
    destruct (eval_prog G n p s) as [r|] eqn:E1; [|discriminate]. destruct (eval_prog G m p s) as [r2|] eqn:E2; [|discriminate].
    pose proof (prog_mono n (n + m) p ltac:(lia) _ _ E1) as E3. pose proof (prog_mono m (n + m) p ltac:(lia) _ _ E2) as E4.
    rewrite E3 in E4. injection E4 as <-. rewrite H in H2. injection H2 as <- <-. auto.
  Qed.
  (* two programs, one after the other, are one program *)
  Theorem C97_sequence p q s o s' : runs (p ++ q) s o s' <-> (exists s1, runs p s (Ok tt) s1 /\ runs q s1 o s') \/ (o = Err /\ runs p s Err s').
  Proof.
    split.
    - revert s. induction p as [|e p IH]; intros s H; [left; exists s; split; [constructor|exact H]|]. cbn [app] in H.
      inversion H as [|e0 p0 s0 v s1 o0 s'0 E Hv R|e0 p0 s0 o1 s1 E F|e0 p0 s0 s1 E A]; subst.
      + destruct (IH _ R) as [(s2 & R1 & R2)|[-> R1]]; [left; exists s2; split; [|exact R2]|right; split; [reflexivity|]]; eapply run_statement; eassumption.
      + right. split; [reflexivity|]. eapply run_failed; eassumption.
      + right. split; [reflexivity|]. eapply run_nothing; eassumption.
    - intros [(s1 & R1 & R2)|[-> R1]].
      + remember (Ok tt) as ok. induction R1; subst; try discriminate; [exact R2|]. cbn [app]. eapply run_statement; eauto.
      + remember Err as er. induction R1; subst; try discriminate; cbn [app]; [eapply run_statement; eauto|eapply run_failed; eassumption|eapply run_nothing; eassumption].
  Qed.

  (* ---------- C98 ---------- *)
  Lemma assign_special x e s v s1 o s2 : evaluates e s v s1 -> AssignEnv G x v None s1 = (o, s2) ->
    ends (TEval (assign x e)) s (match o with Ok _ => Ok v | Err => Err | Panic => Panic end) s2.
  Proof.
    intros He A. apply app_monadic. right. exists v, s1. split; [exact He|]. exists 1%nat. cbn [interp step]. unfold derived_call. rewrite String.eqb_refl.
    assert (Q : forall i, assign_call G i (Some (target x)) None v = mbind (massign G x v None) (fun _ => mret v)) by (intros i; destruct x; reflexivity).
    rewrite Q. unfold mbind, massign. rewrite A. destruct o; reflexivity.
  Qed.
  (* ⎕IO←e sets the index origin to 0 or 1 and changes nothing else *)
  Theorem C98_origin e s d s1 b : evaluates e s (VD d) s1 -> l_toBool G d = Some b ->
    evaluates (assign QIO e) s (VD d) (mkSt (envs s1) (pkgs s1) (if b then 1%Z else 0%Z) (out s1) (ext s1)).
  Proof. intros He Hb. refine (assign_special QIO e s (VD d) s1 (Ok tt) _ He _). unfold AssignEnv. cbn [isVarname negb]. rewrite Hb. reflexivity. Qed.
  Theorem C98_origin_domain e s v s1 : evaluates e s v s1 -> truth G v = None -> ends (TEval (assign QIO e)) s Err s1.
  Proof.
    intros He Hb. refine (assign_special QIO e s v s1 Err _ He _). unfold AssignEnv. cbn [isVarname negb]. unfold truth in Hb. destruct v; try reflexivity. rewrite Hb. reflexivity.
  Qed.
  (* ⎕IO reads the current origin, in every environment *)
  Theorem C98_origin_read s : evaluates (EVar QIO) s (VD (l_intD G (origin s))) s.
  Proof. exists 1%nat. reflexivity. Qed.
  (* ⎕←e prints the value of e, and is the value of e *)
  Theorem C98_print e s v s1 : evaluates e s v s1 ->
    evaluates (assign Quad e) s v (mkSt (envs s1) (pkgs s1) (origin s1) (out s1 ++ [v]) (ext s1)).
  Proof. intros He. exact (assign_special Quad e s v s1 (Ok tt) _ He eq_refl). Qed.

  (* ---------- C96 ---------- *)
  (* a value cannot be assigned to a name for functions, nor a function to a name for values *)
  Theorem C96_kind x e s v s1 : (match x with Num _ => isFn v = true | Fun _ => isFn v = false | _ => False end) -> evaluates e s v s1 ->
    ends (TEval (assign x e)) s Err s1.
  Proof. intros Hx He. refine (assign_special x e s v s1 Err _ He _). destruct x; try contradiction; unfold AssignEnv; cbn [isVarname negb]; rewrite Hx; reflexivity. Qed.
  (* the variables of a package cannot be assigned, and what is not a name cannot be assigned *)
  Theorem C96_package_fixed p x fn e s v s1 : evaluates e s v s1 -> ends (TEval (assign (Pkg p x fn) e)) s Err s1.
  Proof. intros He. refine (assign_special _ e s v s1 Err _ He _). reflexivity. Qed.
  Theorem C96_no_name x e s v s1 : fst (isVarname x) = false -> evaluates e s v s1 -> ends (TEval (assign x e)) s Err s1.
  Proof. intros Hx He. refine (assign_special _ e s v s1 Err _ He _). unfold AssignEnv. destruct (isVarname x) as [ok fn]. cbn in Hx. subst ok. reflexivity. Qed.

  (* ---------- C99 ---------- *)
  (* A B C←e *)
  Definition assign_many (xs : list name) (e : expr) : expr := EApp (FDer assign_op (Some (EArray (map EVar xs))) None) None e false.
  Definition value_name (x : name) : Prop := match x with Num _ => True | _ => False end.
  Lemma names_ok xs : names (map (@EVar D) xs) = Some xs.
  Proof. induction xs as [|x xs IH]; cbn; [reflexivity|]. rewrite IH. reflexivity. Qed.
  Lemma each_ok self xs : Forall value_name xs -> forall vs s, (length vs >= length xs)%nat -> Forall (fun v => isFn v = false) vs ->
    assign_each G self xs vs None s = Some (Ok tt, assign_all G (combine xs vs) s).
  Proof.
    induction 1 as [|x xs Hx _ IH]; intros vs s Hl Hv; [reflexivity|]. destruct vs as [|v vs]; [cbn in Hl; lia|]. inversion Hv as [|? ? H1 H2]; subst.
    cbn [assign_each combine]. unfold assign_all. cbn [fold_left fst snd]. unfold mbind, assignScalar at 1, massign.
    destruct x; try contradiction. destruct (AssignEnv G (Num s0) v None s) as [o s1] eqn:E.
    assert (o = Ok tt) as ->. { unfold AssignEnv in E. cbn [isVarname negb] in E. rewrite H1 in E. cbn in E. injection E as <- _. reflexivity. }
    apply (IH vs s1); [cbn in Hl; lia|exact H2].
  Qed.
  Lemma many_call xs e s R s1 o s2 : evaluates e s R s1 -> (forall i, assignVector G i xs R None s1 = Some (o, s2)) -> ends (TEval (assign_many xs e)) s o s2.
  Proof.
    intros He A. apply app_monadic. right. exists R, s1. split; [exact He|]. exists 1%nat. cbn [interp step]. unfold derived_call. rewrite String.eqb_refl.
    unfold assign_call, mbind at 1 2. cbn [evalAssign]. rewrite names_ok. cbn [mret]. apply A.
  Qed.
  (* every variable gets its element, from left to right *)
  Theorem C99_elements xs e s R s1 vs : Forall value_name xs -> evaluates e s R s1 ->
    l_asVec G R = Some ([zlen xs], vs) -> length vs = length xs -> Forall (fun v => isFn v = false) vs ->
    evaluates (assign_many xs e) s R (assign_all G (combine xs vs) s1).
  Proof.
    intros Hx He Ha Hl Hv. eapply many_call; [exact He|]. intros i. unfold assignVector. rewrite Ha, Z.eqb_refl. cbn [negb]. rewrite Bool.andb_false_r.
    destruct (zlen xs =? 1)%Z eqn:E1.
    - apply Z.eqb_eq in E1. unfold zlen in E1. destruct vs as [|v [|? ?]]; cbn in Hl; try lia. rewrite <- Hl. cbn [repeat length].
      unfold mbind. rewrite (each_ok _ xs Hx) by (auto; cbn; lia). reflexivity.
    - unfold mbind. rewrite (each_ok _ xs Hx) by (auto; lia). reflexivity.
  Qed.
  (* a scalar, or a vector of one element, goes to every variable *)
  Theorem C99_scalar xs e s R s1 v : Forall value_name xs -> evaluates e s R s1 -> isFn v = false ->
    (l_asVec G R = None /\ v = R) \/ l_asVec G R = Some ([1%Z], [v]) ->
    evaluates (assign_many xs e) s R (assign_all G (map (fun x => (x, v)) xs) s1).
  Proof.
    intros Hx He Hf Hv.
    assert (Hc : combine xs (repeat v (length xs)) = map (fun x => (x, v)) xs) by (clear; induction xs as [|x xs IH]; cbn; [reflexivity|]; rewrite IH; reflexivity).
    assert (Hr : Forall (fun v => isFn v = false) (repeat v (length xs))) by (clear - Hf; induction xs; cbn; constructor; auto).
    eapply many_call; [exact He|]. intros i. unfold assignVector.
    destruct Hv as [[Ha ->]|Ha]; rewrite Ha; change (1 =? 1)%Z with true; cbn [negb andb]; unfold mbind; rewrite (each_ok _ xs Hx) by (auto; rewrite repeat_length; lia); rewrite Hc; reflexivity.
  Qed.
  (* any other number of elements, or an array that is not a vector, is an error; nothing is assigned *)
  Theorem C99_count xs e s R s1 sh vs : evaluates e s R s1 -> l_asVec G R = Some (sh, vs) -> sh <> [1%Z] -> sh <> [zlen xs] ->
    ends (TEval (assign_many xs e)) s Err s1.
  Proof.
    intros He Ha H1 H2. eapply many_call; [exact He|]. intros i. unfold assignVector. rewrite Ha. destruct sh as [|n [|? ?]]; try reflexivity.
    rewrite (proj2 (Z.eqb_neq n 1)), (proj2 (Z.eqb_neq n (zlen xs))) by congruence. reflexivity.
  Qed.
End Props.

(* 5 ⋄ A←6 ⋄ ⎕←7 ⋄ fail 1 ⋄ 8 *)
Example C97_example : exists s', runs toy [k 5; assign (Num "A") (k 6); app1 "-" (k 6); app1 "fail" (k 1); k 8] toy0 Err s' /\
  out s' = [VD 5%Z; VD (-6)%Z] /\ Lookup toy s' (Num "A") = VD 6%Z.
Proof. eexists. split; [apply (C97_statements toy); exists 10%nat; reflexivity|]. split; reflexivity. Qed.
Example C98_example : evaluates toy (assign QIO (k 0)) toy0 (VD 0%Z) (mkSt [[]] [] 0 [] []) /\ ends toy (TEval (assign QIO (k 2))) toy0 Err toy0.
Proof. split; exists 10%nat; reflexivity. Qed.
Example C99_example : exists s', evaluates toy (assign_many [Num "A"; Num "B"] (k 3)) toy0 (VD 3%Z) s' /\ Lookup toy s' (Num "B") = VD 3%Z.
Proof. eexists. split; [exists 10%nat; reflexivity|reflexivity]. Qed.
Print Assumptions C97_statements. Print Assumptions C97_deterministic. Print Assumptions C96_kind. Print Assumptions C96_package_fixed. Print Assumptions C96_no_name. Print Assumptions C97_sequence. Print Assumptions C98_origin. Print Assumptions C98_origin_domain. Print Assumptions C98_print.
Print Assumptions C99_elements. Print Assumptions C99_scalar. Print Assumptions C99_count.
