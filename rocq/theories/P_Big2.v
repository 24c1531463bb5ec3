(* P_Big2.v -- the dispatch leaves existing numbers alone. *)
From Coq Require Import String QArith Qabs Qround Lia.
From Verif Require Import Base M_Array S_Array P_Array Eff M_Number M_Big S_Big P_Big.
Open Scope Z_scope.

(* as keeps, with a fixed initial heap *)
Definition extends (h0 h : heap) : Prop := zlen h0 <= zlen h /\ forall p c, znth h0 p = Some c -> znth h p = Some c.
Definition kept {A} (h0 : heap) (m : eff heap A) (P : A -> Prop) : Prop :=
  forall h r h', extends h0 h -> m h = (r, h') -> extends h0 h' /\ (forall a, r = Ok a -> P a).

Lemma kept_keeps {A} h0 (m : eff heap A) P : keeps (zlen h0) m P -> kept h0 m P.
Proof.
  intros K h r h' [L X] E. destruct (K h r h' L E) as (L' & K' & V). split; [|exact V].
  split; [lia|]. intros p c Hp. rewrite K'; [apply X; exact Hp|]. pose proof (znth_some_range _ _ _ Hp). lia.
Qed.
Lemma kept_bind {A B} h0 (m : eff heap A) (k : A -> eff heap B) P R :
  kept h0 m P -> (forall a, P a -> kept h0 (k a) R) -> kept h0 (ebind m k) R.
Proof.
  intros Hm Hk h r h' X E. unfold ebind in E. destruct (m h) as [o h1] eqn:Em.
  destruct (Hm _ _ _ X Em) as (X1 & V1).
  destruct o as [a| |].
  - exact (Hk a (V1 a eq_refl) h1 r h' X1 E).
  - injection E as <- <-. split; [exact X1|discriminate].
  - injection E as <- <-. split; [exact X1|discriminate].
Qed.
Lemma kept_ret {A} h0 (a : A) (P : A -> Prop) : P a -> kept h0 (eret a) P.
Proof. intros. apply kept_keeps, keeps_ret; assumption. Qed.
Lemma kept_fail {A} h0 (P : A -> Prop) : kept h0 efail P.
Proof. apply kept_keeps, keeps_fail. Qed.
Lemma kept_panic {A} h0 (P : A -> Prop) : kept h0 epanic P.
Proof. apply kept_keeps, keeps_panic. Qed.
Lemma kept_weaken {A} h0 (m : eff heap A) (P R : A -> Prop) : kept h0 m P -> (forall a, P a -> R a) -> kept h0 m R.
Proof. intros K HPR h r h' X E. destruct (K _ _ _ X E) as (X' & V). split; [exact X'|]. intros a Ea. apply HPR, V, Ea. Qed.

Lemma from_weaken n ps qs v : from n ps v -> (forall p, In p ps -> In p qs \/ n <= p) -> from n qs v.
Proof. intros HH I. unfold from in *. eapply Forall_impl; [|exact HH]. cbv beta. intros p [E|[E|E]]; auto. destruct (I p E); auto. Qed.
Lemma from_o_weaken n ps qs v : from_o n ps v -> (forall p, In p ps -> In p qs \/ n <= p) -> from_o n qs v.
Proof. destruct v; [apply from_weaken|auto]. Qed.
Lemma from_self n v : from n (objects v) v.
Proof. unfold from. apply Forall_forall. tauto. Qed.

Section BIG.
  Context (rnd : Z -> Q -> fl) (sqt : Z -> Q -> fl) (f64 : fl -> fl).
  Context (fexp flog : flt -> flt) (fpow : flt -> flt -> flt).
  Notation call1 := (call1 rnd sqt f64 fexp flog). Notation call2 := (call2 rnd f64 flog fpow).
  Notation import := (import rnd f64). Notation uptype := (uptype rnd f64). Notation SameType := (SameType rnd f64).
  Notation arith1 := (arith1 rnd sqt f64 fexp flog). Notation arith2 := (arith2 rnd f64 flog fpow).
  Notation arith1_loop := (arith1_loop rnd sqt f64 fexp flog). Notation arith2_loop := (arith2_loop rnd f64 flog fpow).

  Definition is_complex (v : bval) : Prop := match v with VC _ _ => True | _ => False end.

  Ltac fo := let HH := fresh in intros ? HH; eapply from_o_weaken; [exact HH|intros ?; cbn [In objects app]; tauto].
  Lemma k_call1 n o v : ~ (o = Sgn /\ is_complex v) -> keeps n (call1 o v) (from_o n (objects v)).
  Proof.
    intros Hns. destruct v; destruct o; cbn [M_Big.call1]; unfold some, no;
      try solve [apply keeps_ret; try exact Logic.I; apply from_self];
      try solve [destruct (n0 =? 0); apply keeps_ret; try exact Logic.I; apply Forall_nil];
      try solve [apply keeps_ret; destruct (int_div n0); cbn; try exact Logic.I; apply Forall_nil]; try solve [apply keeps_ret; destruct (int_gamma n0); cbn; try exact Logic.I; apply Forall_nil].
    all: try solve [exfalso; apply Hns; split; [reflexivity|exact Logic.I]].
    all: try solve [eapply keeps_weaken; [first
      [ apply k_Int_Neg | apply k_Int_Sgn | apply k_Int_Div | apply k_Int_Pow | apply k_Int_Abs | apply k_Int_Gamma
      | apply k_Rat_Neg | apply k_Rat_Sgn | apply k_Rat_Div | apply k_Rat_Pow | apply k_Rat_Abs | apply k_Rat_round
      | apply k_Float_Neg | apply k_Float_Sgn | apply k_Float_Div | apply k_Float_Pow | apply k_Float_Log | apply k_Float_Abs | apply k_Float_round
      | apply k_Complex_Conj | apply k_Complex_Neg | apply k_Complex_Div | apply k_Complex_Abs | apply k_Complex_Floor | apply k_Complex_Ceil ]
      |fo]].
  Qed.

  Lemma k_toindex n v : keeps n (toindex f64 v) (fun _ => True).
  Proof.
    destruct v; cbn [toindex]; try (apply keeps_ret; exact Logic.I).
    - eapply keeps_bind; [apply keeps_geti|intros; apply keeps_ret; exact Logic.I].
    - eapply keeps_bind; [apply keeps_getr|intros; apply keeps_ret; exact Logic.I].
    - eapply keeps_bind; [apply keeps_getf|intros; apply keeps_ret; exact Logic.I].
    - eapply keeps_bind; [apply keeps_getf|intros]. destruct (negb _); [apply keeps_ret; exact Logic.I|].
      eapply keeps_bind; [apply keeps_getf|intros; apply keeps_ret; exact Logic.I].
  Qed.
  Lemma k_gcd0 n l r m ps : keeps n m (from_o n ps) ->
    keeps n (let! lz := iszeroN f64 l in if lz then some r else let! rz := iszeroN f64 r in if rz then some l else m)
      (from_o n (ps ++ objects l ++ objects r)).
  Proof.
    intros Hm. unfold iszeroN, some.
    assert (Hz : forall v, keeps n (let! i := toindex f64 v in eret (match i with Some 0 => true | _ => false end)) (fun _ => True)).
    { intros v. eapply keeps_bind; [apply k_toindex|intros; apply keeps_ret; exact Logic.I]. }
    eapply keeps_bind; [apply Hz|intros lz _]. destruct lz.
    { apply keeps_ret. eapply from_o_weaken; [apply (from_self n r)|]. intros p Hp. left. apply in_or_app; right; apply in_or_app; right; exact Hp. }
    eapply keeps_bind; [apply Hz|intros rz _]. destruct rz.
    { apply keeps_ret. eapply from_o_weaken; [apply (from_self n l)|]. intros p Hp. left. apply in_or_app; right; apply in_or_app; left; exact Hp. }
    eapply keeps_weaken; [exact Hm|]. intros v Hv. eapply from_o_weaken; [exact Hv|]. intros p Hp. left. apply in_or_app; left; exact Hp.
  Qed.
  (* the exponent, where it is a rational, is new *)
  Lemma k_call2 n o l r : (o = Pow -> forall p, r = VR p -> n <= p) ->
    keeps n (call2 o l r) (from_o n (objects l ++ objects r)).
  Proof.
    intros Hp.
    assert (Hrd : forall P : heap -> outcome (option bval) -> Prop, True) by auto.
    destruct l; destruct r; try apply keeps_panic; destruct o; cbn [M_Big.call2]; unfold fcmp2, some, no;
      try solve [apply keeps_ret; try exact Logic.I; apply Forall_nil].
    all: try solve [apply keeps_ret; destruct (int_div2 n0 n1); cbn; try exact Logic.I; apply Forall_nil].
    all: try solve [eapply (k_gcd0 _ _ _ _ []); apply keeps_ret; try exact Logic.I; apply Forall_nil].
    all: try solve [eapply (k_gcd0 _ _ _ _ []); first [apply k_Int_Gcd|apply k_Rat_Gcd]].
    all: try solve [repeat (eapply keeps_bind; [first [apply keeps_geti|apply keeps_getr|apply keeps_getf]|intros ? _]); apply keeps_ret; apply Forall_nil].
    all: try solve [eapply keeps_weaken; [first
      [ apply k_Int_bin | apply k_Int_Div2 | apply k_Int_Pow2
      | apply k_Rat_bin | apply k_Rat_Div2 | apply k_Rat_Pow2_new; apply (Hp eq_refl); reflexivity
      | apply k_Float_bin | apply k_Float_Div2 | apply k_Float_Pow2 | apply k_Float_Log2
      | apply k_Complex_bin | apply k_Complex_Mul2 | apply k_Complex_Div2 ]
      |fo]].
  Qed.

  (* an exponent that is not negative is not written to *)
  Lemma kept_Rat_Pow2 h0 l r q : znth h0 r = Some (CRat q) -> 0 <= Qnum q -> kept h0 (Rat_Pow2 l r) (from_o (zlen h0) []).
  Proof.
    intros Hr Hq. unfold Rat_Pow2.
    eapply (kept_bind _ _ _ (fun c => c = q)).
    { intros h o h' X E. unfold getr in E. rewrite (proj2 X _ _ Hr) in E. injection E as <- <-. split; [exact X|]. intros a Ea; injection Ea as <-; reflexivity. }
    intros c ->. destruct (iszero q) eqn:Z0.
    { apply kept_keeps. eapply keeps_bind; [apply keeps_new|intros; apply keeps_ret; done_from]. }
    replace (qsign q <? 0) with false by (unfold qsign; destruct (Qnum q); try reflexivity; lia).
    eapply kept_bind; [apply (kept_ret _ _ (fun b => b = false)); reflexivity|intros neg ->].
    apply kept_keeps. cbn [negb andb]. unfold newI, newR, some, no.
    repeat first [ eapply keeps_bind; [apply keeps_new|intros ? ?; cbv beta in *]
                 | eapply keeps_bind; [apply keeps_set; lia|intros ? _]
                 | eapply keeps_bind; [apply keeps_getr|intros ? _]
                 | eapply keeps_bind; [apply keeps_geti|intros ? _]
                 | apply keeps_ret; done_from
                 | match goal with |- keeps _ (if ?b then _ else _) _ => destruct b end ].
  Qed.

  Lemma k_import n tw v : keeps n (import tw v) (from n (objects v)).
  Proof.
    destruct v; cbn [M_Big.import]; try (apply keeps_ret; apply from_self);
      destruct tw; eapply keeps_bind; try apply keeps_new; intros; apply keeps_ret; done_from.
  Qed.
  (* a number of a higher class is made of new objects *)
  Lemma k_uptype n tw v : keeps n (uptype tw v) (from_o n []).
  Proof.
    destruct v; cbn [M_Big.uptype]; unfold some, no, newR, newF; try (apply keeps_ret; try exact Logic.I; apply Forall_nil).
    - eapply keeps_bind; [apply (k_import n tw (VS n0))|]. cbn [objects]. intros w Hw. apply keeps_ret. exact Hw.
    - eapply keeps_bind; [apply keeps_new|intros z Hz]. eapply keeps_bind; [apply keeps_geti|intros]. eapply keeps_bind; [apply keeps_set; exact Hz|intros; apply keeps_ret; done_from].
    - eapply keeps_bind; [apply k_fcopy|intros z Hz]. eapply keeps_bind; [apply keeps_new|intros; apply keeps_ret; done_from].
  Qed.
  Lemma uptype_shape tw v h r h' : uptype tw v h = (r, h') -> forall w, r = Ok (Some w) ->
    match v with VB _ => small w | VS _ => ~ is_complex w /\ (forall p, w <> VR p) | VI _ => exists p, w = VR p /\ zlen h <= p | VF _ => is_complex w | _ => False end.
  Proof.
    destruct v; cbn [M_Big.uptype]; unfold some, no, eret; intros E w Hw.
    - injection E as <- <-. injection Hw as <-. exact Logic.I.
    - cbn [M_Big.import] in E. destruct tw; unfold ebind, new, eret in E; injection E as <- <-; injection Hw as <-; cbn; split; auto; discriminate.
    - unfold newR, ebind, new in E. destruct (geti p (h ++ [CRat 0])) as [o h1] eqn:Eg. destruct o; [|injection E as <- <-; discriminate..].
      destruct (set (zlen h) (CRat (Qred (inject_Z a))) h1) as [o2 h2]. destruct o2; injection E as <- <-; [injection Hw as <-|discriminate..].
      exists (zlen h). split; [reflexivity|lia].
    - injection E as <- <-. discriminate.
    - unfold newF, ebind in E. destruct (fcopy p h) as [o h1]. destruct o; [|injection E as <- <-; discriminate..].
      unfold new in E. injection E as <- <-. injection Hw as <-. exact Logic.I.
    - injection E as <- <-. discriminate.
    - injection E as <- <-. discriminate.
  Qed.

  Lemma k_uptype_shape n tw v : keeps n (uptype tw v)
    (fun o => from_o n [] o /\ forall w, o = Some w ->
      match v with VB _ => small w | VS _ => ~ is_complex w /\ (forall p, w <> VR p) | VI _ => exists p, w = VR p /\ n <= p | VF _ => is_complex w | _ => False end).
  Proof.
    intros h r h' Hn E. destruct (k_uptype n tw v h r h' Hn E) as (L & K & V). split; [exact L|]. split; [exact K|].
    intros a Ea. split; [exact (V a Ea)|]. intros w ->. pose proof (uptype_shape tw v h r h' E w Ea) as U.
    destruct v; auto. destruct U as [p0 [-> U]]. exists p0. split; [reflexivity|lia].
  Qed.

  (* ---------------- one argument ---------------- *)
  (* once the argument is a copy, anything may happen to it *)
  Lemma k_call1_new n o v : Forall (fun p => p = -1 \/ n <= p) (objects v) -> keeps n (call1 o v) (from_o n []).
  Proof.
    intros Hv.
    assert (D : (o = Sgn /\ is_complex v) \/ ~ (o = Sgn /\ is_complex v)).
    { destruct o; try (right; intros [E _]; discriminate E); destruct v; cbn; tauto. }
    destruct D as [[-> C]|D].
    - destruct v; try contradiction. cbn [M_Big.call1]. unfold Complex_Sgn, some. cbn [objects] in Hv. inversion_clear Hv as [|? ? Ha Hb]. inversion_clear Hb as [|? ? Hb' _].
      intros h r h' Hn E. unfold ebind at 1 in E. destruct (ccopy re im h) as [oc h1] eqn:Ec.
      destruct (k_ccopy n re im h _ _ Hn Ec) as (L1 & K1 & V1).
      destruct oc as [[a b]| |]; [|injection E as <- <-; split; [exact L1|]; split; [exact K1|discriminate]..].
      destruct (V1 _ eq_refl) as [Va Vb]. cbn in Va, Vb.
      assert (Hre : n <= re).
      { destruct Ha as [->|Ha]; [|exact Ha]. exfalso. unfold ccopy, ebind, fcopy, ebind, getf in Ec. rewrite (proj2 (znth_none h (-1))) in Ec by lia. discriminate Ec. }
      assert (Him : n <= im).
      { destruct Hb' as [->|Hb']; [|exact Hb']. exfalso. unfold ccopy, ebind at 1 in Ec. destruct (fcopy re h) as [[x| |] hx]; [|discriminate Ec..].
        unfold ebind, fcopy, ebind, getf in Ec. rewrite (proj2 (znth_none hx (-1))) in Ec by lia. discriminate Ec. }
      assert (KK : keeps n (let! r := cabs rnd sqt re im in let! rv := getf r in
                if fsign (fv rv) =? 0 then (let! _ := f_setint rnd a 0 in let! _ := f_setint rnd b 0 in eret (Some (VC a b))) else
                let! _ := f_op rnd fl_quo a a r in let! _ := f_op rnd fl_quo b b r in eret (Some (VC a b))) (from_o n [])).
      { eapply keeps_bind; [apply k_cabs; assumption|intros rr Hrr]. eapply keeps_bind; [apply keeps_getf|intros rv _]. destruct (fsign (fv rv) =? 0).
        - eapply keeps_bind; [apply k_fsetint; lia|intros]. eapply keeps_bind; [apply k_fsetint; lia|intros]. apply keeps_ret. done_from.
        - eapply keeps_bind; [apply k_fop; lia|intros]. eapply keeps_bind; [apply k_fop; lia|intros]. apply keeps_ret. done_from. }
      destruct (KK h1 r h' ltac:(lia) E) as (L2 & K2 & V2). split; [lia|]. split; [|exact V2]. intros p Hp. rewrite K2, K1 by exact Hp. reflexivity.
    - eapply keeps_weaken; [apply k_call1; exact D|]. intros [w|] HH; [|exact Logic.I]. cbn in *. unfold from in *. eapply Forall_impl; [|exact HH]. cbv beta.
      intros p [E|[E|E]]; auto. rewrite Forall_forall in Hv. destruct (Hv p E); auto.
  Qed.
  Lemma from_nil n v : from n [] v -> Forall (fun p => p = -1 \/ n <= p) (objects v).
  Proof. intros HH. unfold from in HH. eapply Forall_impl; [|exact HH]. cbv beta. cbn [In]. intros; tauto. Qed.
  Lemma k_arith1_loop_new n k tw o : forall v, Forall (fun p => p = -1 \/ n <= p) (objects v) -> keeps n (arith1_loop k tw o v) (from n []).
  Proof.
    induction k as [|k IH]; intros v Hv; cbn [M_Big.arith1_loop]; [apply keeps_fail|].
    eapply keeps_bind; [apply k_call1_new; exact Hv|intros [w|] Hw]; [apply keeps_ret; exact Hw|].
    eapply keeps_bind; [apply k_uptype|intros [w|] Hw2]; [|apply keeps_fail]. apply IH, from_nil. exact Hw2.
  Qed.
  Lemma k_arith1 n tw o v : ~ (o = Sgn /\ is_complex v) -> keeps n (arith1 tw o v) (from n (objects v)).
  Proof.
    intros Hns. unfold M_Big.arith1. eapply keeps_bind; [apply k_call1; exact Hns|intros [w|] Hw]; [apply keeps_ret; exact Hw|].
    destruct (class_of tw v); [|apply keeps_fail]. cbn [M_Big.arith1_loop].
    eapply keeps_bind; [apply k_call1; exact Hns|intros [w|] Hw2]; [apply keeps_ret; exact Hw2|].
    eapply keeps_bind; [apply k_uptype|intros [w|] Hw3]; [|apply keeps_fail].
    eapply keeps_weaken; [apply (k_arith1_loop_new n 3 tw o w), from_nil; exact Hw3|].
    intros x Hx. eapply from_weaken; [exact Hx|]. intros p [].
  Qed.

  (* ---------------- two arguments ---------------- *)
  (* r, where it is a rational, may be an exponent *)
  Definition exponent_ok (h0 : heap) (o : op2) (r : bval) : Prop :=
    o = Pow -> forall p, r = VR p -> zlen h0 <= p \/ exists q, znth h0 p = Some (CRat q) /\ 0 <= Qnum q.
  Lemma kept_call2 h0 o l r : exponent_ok h0 o r -> kept h0 (call2 o l r) (from_o (zlen h0) (objects l ++ objects r)).
  Proof.
    intros Hx.
    assert (D : (o = Pow /\ exists p, r = VR p /\ exists q, znth h0 p = Some (CRat q) /\ 0 <= Qnum q) \/ (o = Pow -> forall p, r = VR p -> zlen h0 <= p)).
    { destruct o; try (right; discriminate). destruct r as [b|n0|p0|p0|p0|p0 p1|s0]; try (right; intros _ p HH; discriminate HH).
      destruct (Hx eq_refl p0 eq_refl) as [Hn|Hq]; [right; intros _ p2 HH; injection HH as <-; exact Hn|left; split; [reflexivity|exists p0; split; [reflexivity|exact Hq]]]. }
    destruct D as [[-> [p [-> [q [Hq1 Hq2]]]]]|D]; [|apply kept_keeps, k_call2; exact D].
    destruct l; cbn [M_Big.call2]; try apply kept_panic.
    eapply kept_weaken; [eapply kept_Rat_Pow2; eassumption|]. intros v Hv. eapply from_o_weaken; [exact Hv|intros ? []].
  Qed.
  Lemma kept_loop h0 k tw o : forall l r, exponent_ok h0 o r ->
    kept h0 (arith2_loop k tw o l r) (from (zlen h0) (objects l ++ objects r)).
  Proof.
    induction k as [|k IH]; intros l r Hx; cbn [M_Big.arith2_loop]; [apply kept_fail|].
    eapply kept_bind; [apply kept_call2; exact Hx|intros [w|] Hw]; [apply kept_ret; exact Hw|].
    eapply kept_bind; [apply kept_keeps, k_uptype|intros [l'|] Hl]; [|apply kept_fail].
    eapply kept_bind; [apply kept_keeps, k_uptype_shape|intros [r'|] [Hr1 Hr2]]; [|apply kept_panic].
    eapply kept_weaken; [apply IH|].
    - intros -> p ->. specialize (Hr2 _ eq_refl). destruct r; cbn in Hr2; try contradiction; try (destruct Hr2 as [_ Hr2]; exfalso; exact (Hr2 p eq_refl)).
      destruct Hr2 as [p1 [E Hp1]]. injection E as ->. left. exact Hp1.
    - intros v Hv. cbn in Hl, Hr1. unfold from in *. eapply Forall_impl; [|exact Hv]. cbv beta. intros p [E|[E|E]]; auto.
      apply in_app_or in E. rewrite Forall_forall in Hl, Hr1. destruct E as [E|E]; [specialize (Hl p E)|specialize (Hr1 p E)]; cbn [In] in *; tauto.
  Qed.
  Lemma k_SameType n tw a b : keeps n (SameType tw a b)
    (fun '(a', b') => (from n (objects a ++ objects b) a' /\ from n (objects a ++ objects b) b') /\ (forall p, b' = VR p -> b = VR p \/ n <= p)).
  Proof.
    assert (TA : from n (objects a ++ objects b) a) by (eapply from_weaken; [apply from_self|intros p Hp; left; apply in_or_app; left; exact Hp]).
    assert (TB : from n (objects a ++ objects b) b) by (eapply from_weaken; [apply from_self|intros p Hp; left; apply in_or_app; right; exact Hp]).
    assert (TS : forall z, from n (objects a ++ objects b) (VS z)) by (intros; apply Forall_nil).
    unfold M_Big.SameType. destruct (same_type a b) eqn:ES.
    { apply keeps_ret. split; [split; assumption|]. intros p ->. left; reflexivity. }
    assert (G : keeps n (let! a0 := import tw a in let! b0 := import tw b in
        match class_of tw a0 with
        | Some ca => match class_of tw b0 with
          | Some cb => if ca <? cb then let! w := uptype tw a0 in match w with Some a' => eret (a', b0) | None => efail end
                       else if cb <? ca then let! w := uptype tw b0 in match w with Some b' => eret (a0, b') | None => efail end
                       else eret (a0, b0)
          | None => efail end
        | None => efail end)
        (fun '(a', b') => (from n (objects a ++ objects b) a' /\ from n (objects a ++ objects b) b') /\ (forall p, b' = VR p -> b = VR p \/ n <= p))).
    { eapply keeps_bind; [apply k_import|intros a0 Ha0].
      assert (Ha : from n (objects a ++ objects b) a0) by (eapply from_weaken; [exact Ha0|intros p Hp; left; apply in_or_app; left; exact Hp]).
      eapply (keeps_bind _ _ _ (fun b0 => from n (objects b) b0 /\ (forall p, b0 = VR p -> b = VR p \/ n <= p))).
      { intros h r h' Hn E. destruct (k_import n tw b h r h' Hn E) as (L & K & V). split; [exact L|]. split; [exact K|]. intros x Ex. split; [exact (V x Ex)|].
        intros p ->. destruct b; cbn [M_Big.import] in E; try (unfold eret in E; injection E as <- <-; injection Ex as ->; left; reflexivity);
          destruct tw; unfold ebind, new, eret in E; injection E as <- <-; discriminate Ex. }
      intros b0 [Hb0 Hbs].
      assert (Hb : from n (objects a ++ objects b) b0) by (eapply from_weaken; [exact Hb0|intros p Hp; left; apply in_or_app; right; exact Hp]).
      destruct (class_of tw a0) as [ca|]; [|apply keeps_fail]. destruct (class_of tw b0) as [cb|]; [|apply keeps_fail].
      destruct (ca <? cb).
      { eapply keeps_bind; [apply k_uptype|intros [a'|] Ha']; [|apply keeps_fail]. apply keeps_ret. split; [split; [|exact Hb]|exact Hbs].
        eapply from_weaken; [exact Ha'|intros ? []]. }
      destruct (cb <? ca).
      { eapply keeps_bind; [apply k_uptype_shape|intros [b'|] [Hb1 Hb2]]; [|apply keeps_fail]. apply keeps_ret. split; [split; [exact Ha|eapply from_weaken; [exact Hb1|intros ? []]]|].
        intros p ->. specialize (Hb2 _ eq_refl). destruct b0; cbn in Hb2; try contradiction; try (destruct Hb2 as [_ Hb2]; exfalso; exact (Hb2 p eq_refl)).
        destruct Hb2 as [p1 [E Hp1]]. injection E as ->. right. exact Hp1. }
      apply keeps_ret. split; [split; assumption|exact Hbs]. }
    destruct a; destruct b; try exact G; try (apply keeps_ret; split; [split; assumption || apply TS|discriminate]).
  Qed.
  Lemma kept_arith2 h0 tw o l r : exponent_ok h0 o r -> kept h0 (arith2 tw o l r) (from (zlen h0) (objects l ++ objects r)).
  Proof.
    intros Hx. unfold M_Big.arith2.
    eapply (kept_bind _ _ _ (from_o (zlen h0) (objects l ++ objects r))).
    { destruct (same_type l r); [apply kept_call2; exact Hx|apply kept_ret; exact Logic.I]. }
    intros [w|] Hw; [apply kept_ret; exact Hw|].
    eapply kept_bind; [apply kept_keeps, k_SameType|intros [l' r'] [[Hl Hr] Hrp]].
    destruct (class_of tw l') as [c|]; [|apply kept_fail].
    eapply kept_weaken; [apply kept_loop|].
    - intros -> p ->. destruct (Hrp p eq_refl) as [->|Hn]; [exact (Hx eq_refl p eq_refl)|left; exact Hn].
    - intros v Hv. unfold from in *. eapply Forall_impl; [|exact Hv]. cbv beta. intros p [E|[E|E]]; auto.
      apply in_app_or in E. rewrite Forall_forall in Hl, Hr. destruct E as [E|E]; [exact (Hl p E)|exact (Hr p E)].
  Qed.
End BIG.
