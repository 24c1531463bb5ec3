(* Prop_Big2.v -- floating point numbers of any precision: C137. *)
From Coq Require Import String QArith Qabs Qround Qfield Lia.
From Verif Require Import Base M_Array S_Array P_Array Eff M_Number M_Big S_Big P_Big P_Big2 P_Big3 P_Big4 P_Big6 Prop_Big.
Open Scope Z_scope.

(* m makes a new float f and changes nothing else *)
Definition makes (m : eff heap bval) (h : heap) (f : flt) : Prop :=
  exists p h', m h = (Ok (VF p), h') /\ fresh_after h p /\ znth h' p = Some (CFlt f) /\ unchanged h h'.
(* m makes a new complex number with the parts a and b *)
Definition makes_c (m : eff heap bval) (h : heap) (a b : flt) : Prop :=
  exists p q h', m h = (Ok (VC p q), h') /\ fresh_after h p /\ fresh_after h q /\
    znth h' p = Some (CFlt a) /\ znth h' q = Some (CFlt b) /\ unchanged h h'.
(* v is a complex number with the parts a and b *)
Definition complexes (h : heap) (v : bval) (a b : flt) : Prop :=
  exists p q, v = VC p q /\ znth h p = Some (CFlt a) /\ znth h q = Some (CFlt b).

Section CLAIMS.
  Context (rnd : Z -> Q -> fl) (sqt : Z -> Q -> fl) (f64 : fl -> fl).
  Context (fexp flog : flt -> flt) (fpow : flt -> flt -> flt).
  Notation arith1 := (arith1 rnd sqt f64 fexp flog). Notation arith2 := (arith2 rnd f64 flog fpow).

  (* a float as it is, a machine integer as the tower of precision k takes it *)
  Inductive taken (k : Z) (h : heap) : bval -> flt -> Prop :=
  | taken_float : forall p f, znth h p = Some (CFlt f) -> taken k h (VF p) f
  | taken_int : forall n, taken k h (VS n) (mkF k (fround rnd k (f64 (Fin (inject_Z n)))))
  | taken_bool : forall b : bool, taken k h (VB b) (mkF k (rnd k (inject_Z (if b then 1 else 0)))).
  Definition is_float (v : bval) : bool := match v with VF _ => true | _ => false end.

  Lemma unchanged_app h t : unchanged h (h ++ t).
  Proof. intros p c Hp. apply znth_old, Hp. Qed.
  (* an operation of two floats is that of the methods, after an import *)
  Lemma dispatch k o l r h fl_ fr f :
    is_float l || is_float r = true -> taken k h l fl_ -> taken k h r fr ->
    (forall h1 p q, unchanged h h1 -> zlen h <= zlen h1 -> znth h1 p = Some (CFlt fl_) -> znth h1 q = Some (CFlt fr) ->
       exists c h2, call2 rnd f64 flog fpow o (VF p) (VF q) h1 = (Ok (Some (VF c)), h2) /\ zlen h1 <= c /\ znth h2 c = Some (CFlt f) /\ unchanged h1 h2) ->
    makes (arith2 (Precise k) o l r) h f.
  Proof.
    intros HF Hl Hr Hc. unfold makes, M_Big.arith2.
    assert (TR : forall a b c : heap, unchanged a b -> unchanged b c -> unchanged a c) by (intros a b c X Y p x Hx; auto).
    assert (ZL : forall c : cell, zlen [c] = 1) by reflexivity.
    assert (FIN : forall h1 p q, unchanged h h1 -> zlen h <= zlen h1 -> znth h1 p = Some (CFlt fl_) -> znth h1 q = Some (CFlt fr) ->
      exists p0 h', arith2_loop rnd f64 flog fpow 2 (Precise k) o (VF p) (VF q) h1 = (Ok (VF p0), h') /\ fresh_after h p0 /\ znth h' p0 = Some (CFlt f) /\ unchanged h h').
    { intros h1 p q U L P1 P2. destruct (Hc h1 p q U L P1 P2) as (c & h2 & E & F & G & U2). exists c, h2.
      change (arith2_loop rnd f64 flog fpow 2 (Precise k) o (VF p) (VF q)) with
        (let! res := call2 rnd f64 flog fpow o (VF p) (VF q) in match res with Some w => eret w | None =>
           let! u := uptype rnd f64 (Precise k) (VF p) in match u with None => efail | Some l' => let! w := uptype rnd f64 (Precise k) (VF q) in
             match w with Some r' => arith2_loop rnd f64 flog fpow 1 (Precise k) o l' r' | None => epanic end end end).
      rewrite (ebind_ok _ _ _ _ _ E). unfold fresh_after. repeat split; [lia|exact G|eapply TR; eassumption]. }
    destruct Hl as [p fp Pl|n|b]; destruct Hr as [q fq Pr|m|b2]; try discriminate HF.
    - destruct (Hc h p q ltac:(intros ? ? X; exact X) ltac:(lia) Pl Pr) as (c & h2 & E & F & G & U).
      exists c, h2. cbn [same_type]. rewrite (ebind_ok _ _ _ _ _ E). repeat split; auto.
    - cbn [same_type]. rewrite (ebind_ok _ _ _ None h) by reflexivity.
      rewrite (ebind_ok _ _ _ (VF p, VF (zlen h)) (h ++ [CFlt (mkF k (fround rnd k (f64 (Fin (inject_Z m)))))])) by reflexivity.
      cbn [class_of]. change (Z.to_nat (2 - 0)) with 2%nat. apply FIN; [apply unchanged_app|rewrite zlen_app, ZL; lia|apply znth_old, Pl|apply znth_last].
    - cbn [same_type]. rewrite (ebind_ok _ _ _ None h) by reflexivity.
      rewrite (ebind_ok _ _ _ (VF p, VF (zlen h)) (h ++ [CFlt (mkF k (rnd k (inject_Z (if b2 then 1 else 0))))])) by reflexivity.
      cbn [class_of]. change (Z.to_nat (2 - 0)) with 2%nat. apply FIN; [apply unchanged_app|rewrite zlen_app, ZL; lia|apply znth_old, Pl|apply znth_last].
    - cbn [same_type]. rewrite (ebind_ok _ _ _ None h) by reflexivity.
      rewrite (ebind_ok _ _ _ (VF (zlen h), VF q) (h ++ [CFlt (mkF k (fround rnd k (f64 (Fin (inject_Z n)))))])) by reflexivity.
      cbn [class_of]. change (Z.to_nat (2 - 0)) with 2%nat. apply FIN; [apply unchanged_app|rewrite zlen_app, ZL; lia|apply znth_last|apply znth_old, Pr].
    - cbn [same_type]. rewrite (ebind_ok _ _ _ None h) by reflexivity.
      rewrite (ebind_ok _ _ _ (VF (zlen h), VF q) (h ++ [CFlt (mkF k (rnd k (inject_Z (if b then 1 else 0))))])) by reflexivity.
      cbn [class_of]. change (Z.to_nat (2 - 0)) with 2%nat. apply FIN; [apply unchanged_app|rewrite zlen_app, ZL; lia|apply znth_last|apply znth_old, Pr].
  Qed.
  Lemma one_cell h f p q a b v (op : fl -> fl -> outcome fl) : znth h p = Some (CFlt a) -> znth h q = Some (CFlt b) -> op (fv a) (fv b) = Ok v -> prec a <> 0 ->
    f = mkF (prec a) (fround rnd (prec a) v) ->
    exists c h2, Float_bin rnd op p q h = (Ok (Some (VF c)), h2) /\ zlen h <= c /\ znth h2 c = Some (CFlt f) /\ unchanged h h2.
  Proof.
    intros P1 P2 Hv Hp ->. exists (zlen h). eexists. split; [eapply Float_bin_run; eassumption|]. split; [lia|]. split; [apply znth_last|apply unchanged_app].
  Qed.
  (* the result is the exact one, rounded once to the precision of the left argument *)
  Theorem C137_add : forall k h l r p p' x y, is_float l || is_float r = true -> taken k h l (mkF p (Fin x)) -> taken k h r (mkF p' (Fin y)) -> 0 < p ->
    makes (arith2 (Precise k) Add l r) h (mkF p (rnd p (x + y))).
  Proof.
    intros k h l r p p' x y HF Hl Hr Hp. eapply dispatch; [exact HF|exact Hl|exact Hr|]. intros h1 a b U L P1 P2.
    cbn [call2]. eapply one_cell with (v := Fin (x + y)); [exact P1|exact P2|reflexivity|cbn [prec]; lia|reflexivity].
  Qed.
  Theorem C137_subtract : forall k h l r p p' x y, is_float l || is_float r = true -> taken k h l (mkF p (Fin x)) -> taken k h r (mkF p' (Fin y)) -> 0 < p ->
    makes (arith2 (Precise k) Sub l r) h (mkF p (rnd p (x - y))).
  Proof.
    intros k h l r p p' x y HF Hl Hr Hp. eapply dispatch; [exact HF|exact Hl|exact Hr|]. intros h1 a b U L P1 P2.
    cbn [call2]. eapply one_cell with (v := Fin (x - y)); [exact P1|exact P2|reflexivity|cbn [prec]; lia|reflexivity].
  Qed.
  Theorem C137_multiply : forall k h l r p p' x y, is_float l || is_float r = true -> taken k h l (mkF p (Fin x)) -> taken k h r (mkF p' (Fin y)) -> 0 < p ->
    makes (arith2 (Precise k) Mul l r) h (mkF p (rnd p (x * y))).
  Proof.
    intros k h l r p p' x y HF Hl Hr Hp. eapply dispatch; [exact HF|exact Hl|exact Hr|]. intros h1 a b U L P1 P2.
    cbn [call2]. eapply one_cell with (v := Fin (x * y)); [exact P1|exact P2|reflexivity|cbn [prec]; lia|reflexivity].
  Qed.
  Theorem C137_divide : forall k h l r p p' x y, is_float l || is_float r = true -> taken k h l (mkF p (Fin x)) -> taken k h r (mkF p' (Fin y)) -> 0 < p ->
    ~ (x == 0)%Q -> ~ (y == 0)%Q -> makes (arith2 (Precise k) Div l r) h (mkF p (rnd p (x / y))).
  Proof.
    intros k h l r p p' x y HF Hl Hr Hp Hx Hy. eapply dispatch; [exact HF|exact Hl|exact Hr|]. intros h1 a b U L P1 P2.
    cbn [call2]. unfold Float_Div2. rewrite (ebind_ok _ _ _ _ _ (getf_at _ _ _ P1)), (ebind_ok _ _ _ _ _ (getf_at _ _ _ P2)).
    cbn [fv is_inf]. rewrite (proj2 (fsign0f x) Hx), (proj2 (fsign0f y) Hy). cbn [andb].
    exists (zlen h1), (h1 ++ [CFlt (mkF p (rnd p (x / y)))]). split.
    - rewrite <- (app_nil_r h1) at 1. unfold some. fstep.
      erewrite ebind_ok by (apply run_fop with (a := mkF p (Fin x)) (b := mkF p' (Fin y)) (v := Fin (x / y)); [look|look|look|apply quo_ok; exact Hy]).
      listify. cbn [prec]. replace (p =? 0) with false by lia. unfold eret. rewrite Z.add_0_r. reflexivity.
    - split; [lia|]. split; [apply znth_last|apply unchanged_app].
  Qed.
  Theorem C137_divide_zero : forall k h l r p p' y, is_float l || is_float r = true -> taken k h l (mkF p (Fin 0)) -> taken k h r (mkF p' (Fin y)) -> 0 < p ->
    ~ (y == 0)%Q -> makes (arith2 (Precise k) Div l r) h (mkF p (rnd p 0)).
  Proof.
    intros k h l r p p' y HF Hl Hr Hp Hy. eapply dispatch; [exact HF|exact Hl|exact Hr|]. intros h1 a b U L P1 P2.
    cbn [call2]. unfold Float_Div2. rewrite (ebind_ok _ _ _ _ _ (getf_at _ _ _ P1)), (ebind_ok _ _ _ _ _ (getf_at _ _ _ P2)).
    cbn [fv is_inf]. rewrite (proj2 (fsign0f y) Hy). change (fsign (Fin 0) =? 0) with true. cbn [andb].
    exists (zlen h1), (h1 ++ [CFlt (mkF p (rnd p 0))]). split.
    - rewrite <- (app_nil_r h1) at 1. unfold some. fstep.
      erewrite ebind_ok by (apply run_fsetint with (c := mkF p (Fin 0)); [reflexivity|cbn [prec]; lia]).
      listify. unfold eret. rewrite Z.add_0_r. reflexivity.
    - split; [lia|]. split; [apply znth_last|apply unchanged_app].
  Qed.
  (* comparisons are exact; the answer is a boolean and no object is made for two floats *)
  Theorem C137_compare : forall k h p q fx fy,
    znth h p = Some (CFlt fx) -> znth h q = Some (CFlt fy) ->
    arith2 (Precise k) LESS (VF p) (VF q) h = (Ok (VB (is_lt (f_cmp (fv fx) (fv fy)))), h) /\
    arith2 (Precise k) EQ (VF p) (VF q) h = (Ok (VB (is_eq (f_cmp (fv fx) (fv fy)))), h).
  Proof.
    intros k h p q fx fy P1 P2. split; unfold M_Big.arith2; cbn [same_type call2]; unfold fcmp2, some;
      rewrite !ebind_assoc, (ebind_ok _ _ _ _ _ (getf_at _ _ _ P1)), ebind_assoc, (ebind_ok _ _ _ _ _ (getf_at _ _ _ P2)); reflexivity.
  Qed.
  (* ---------------- complex numbers ---------------- *)
  Lemma complex_dispatch k o h a b c d x y :
    (exists p q h', call2 rnd f64 flog fpow o (VC a b) (VC c d) h = (Ok (Some (VC p q)), h') /\ zlen h <= p /\ zlen h <= q /\
       znth h' p = Some (CFlt x) /\ znth h' q = Some (CFlt y) /\ unchanged h h') ->
    makes_c (arith2 (Precise k) o (VC a b) (VC c d)) h x y.
  Proof.
    intros (p & q & h' & E & L1 & L2 & G1 & G2 & U). exists p, q, h'. unfold M_Big.arith2. cbn [same_type]. rewrite (ebind_ok _ _ _ _ _ E). repeat split; assumption.
  Qed.
  Theorem C137_complex_add : forall k h l r p a b c d, complexes h l (mkF p (Fin a)) (mkF p (Fin b)) -> complexes h r (mkF p (Fin c)) (mkF p (Fin d)) -> 0 < p ->
    makes_c (arith2 (Precise k) Add l r) h (mkF p (rnd p (a + c))) (mkF p (rnd p (b + d))) /\
    makes_c (arith2 (Precise k) Sub l r) h (mkF p (rnd p (a - c))) (mkF p (rnd p (b - d))).
  Proof.
    intros k h l r p a b c d (pa & pb & -> & Pa & Pb) (pc & pd & -> & Pc & Pd) Hp.
    assert (HH : forall X Y : Z, (if p =? 0 then X else Y) = Y) by (intros; replace (p =? 0) with false by lia; reflexivity).
    split; apply complex_dispatch; cbn [call2]; exists (zlen h + 0), (zlen h + 1);
    (eexists; split;
     [match goal with |- ?m h = _ => replace (m h) with (m (h ++ [])) by (rewrite app_nil_r; reflexivity) end;
      unfold Complex_bin, ccopy, some; repeat fstep; fop; rewrite ?HH; fop; rewrite ?HH; cbn [fround]; reflexivity
     |split; [lia|]; split; [lia|]; split; [rewrite znth_new by lia; reflexivity|]; split; [rewrite znth_new by lia; reflexivity|apply unchanged_app]]).
  Qed.
  (* the four products and the two sums are rounded *)
  Theorem C137_complex_multiply : forall k h l r p a b c d ac bd ad bc,
    complexes h l (mkF p (Fin a)) (mkF p (Fin b)) -> complexes h r (mkF p (Fin c)) (mkF p (Fin d)) -> 0 < p ->
    rnd p (a * c) = Fin ac -> rnd p (b * d) = Fin bd -> rnd p (a * d) = Fin ad -> rnd p (b * c) = Fin bc ->
    makes_c (arith2 (Precise k) Mul l r) h (mkF p (rnd p (ac - bd))) (mkF p (rnd p (ad + bc))).
  Proof.
    intros k h l r p a b c d ac bd ad bc (pa & pb & -> & Pa & Pb) (pc & pd & -> & Pc & Pd) Hp E1 E2 E3 E4.
    apply complex_dispatch. cbn [call2].
    destruct (Complex_Mul2_run rnd h pa pb pc pd p a b c d ac bd ad bc Pa Pb Pc Pd ltac:(lia) E1 E2 E3 E4) as (t & E & Z1 & Z2).
    exists (zlen h + 0), (zlen h + 1), (h ++ t). split; [exact E|]. split; [lia|]. split; [lia|].
    rewrite !znth_new by lia. split; [exact Z1|]. split; [exact Z2|apply unchanged_app].
  Qed.
  (* if rounding has a relative error of at most u, the error of a product is small
     against the sizes of its terms *)
  Theorem C137_complex_error : forall k h l r p a b c d u,
    complexes h l (mkF p (Fin a)) (mkF p (Fin b)) -> complexes h r (mkF p (Fin c)) (mkF p (Fin d)) -> 0 < p -> (0 <= u)%Q ->
    (forall q, exists q', rnd p q = Fin q' /\ (Qabs (q' - q) <= u * Qabs q)%Q) ->
    exists re im, makes_c (arith2 (Precise k) Mul l r) h (mkF p (Fin re)) (mkF p (Fin im)) /\
      (Qabs (re - (a * c - b * d)) <= (u * (2 + u)) * (Qabs (a * c) + Qabs (b * d)))%Q /\
      (Qabs (im - (a * d + b * c)) <= (u * (2 + u)) * (Qabs (a * d) + Qabs (b * c)))%Q.
  Proof.
    intros k h l r p a b c d u Hl Hr Hp Hu HR.
    destruct (HR (a * c)%Q) as (ac & E1 & B1). destruct (HR (b * d)%Q) as (bd & E2 & B2).
    destruct (HR (a * d)%Q) as (ad & E3 & B3). destruct (HR (b * c)%Q) as (bc & E4 & B4).
    destruct (HR (ac - bd)%Q) as (re & E5 & B5). destruct (HR (ad + bc)%Q) as (im & E6 & B6).
    pose proof (C137_complex_multiply k h l r p a b c d ac bd ad bc Hl Hr Hp E1 E2 E3 E4) as M. rewrite E5, E6 in M.
    assert (KEY : forall x y x' y' s, (Qabs (x' - x) <= u * Qabs x -> Qabs (y' - y) <= u * Qabs y -> Qabs (s - (x' + y')) <= u * Qabs (x' + y') ->
       Qabs (s - (x + y)) <= (u * (2 + u)) * (Qabs x + Qabs y))%Q).
    { intros x y x' y' s H1 H2 H3.
      assert (T : (Qabs (s - (x + y)) <= Qabs (s - (x' + y')) + (Qabs (x' - x) + Qabs (y' - y)))%Q).
      { setoid_replace (s - (x + y))%Q with ((s - (x' + y')) + ((x' - x) + (y' - y)))%Q by ring.
        eapply Qle_trans; [apply Qabs_triangle|]. apply Qplus_le_r, Qabs_triangle. }
      assert (T2 : (Qabs (x' + y') <= (1 + u) * (Qabs x + Qabs y))%Q).
      { setoid_replace (x' + y')%Q with ((x + y) + ((x' - x) + (y' - y)))%Q by ring.
        eapply Qle_trans; [apply Qabs_triangle|].
        setoid_replace ((1 + u) * (Qabs x + Qabs y))%Q with ((Qabs x + Qabs y) + (u * Qabs x + u * Qabs y))%Q by ring.
        apply Qplus_le_compat; [apply Qabs_triangle|]. eapply Qle_trans; [apply Qabs_triangle|]. apply Qplus_le_compat; assumption. }
      eapply Qle_trans; [exact T|].
      setoid_replace (u * (2 + u) * (Qabs x + Qabs y))%Q with (u * ((1 + u) * (Qabs x + Qabs y)) + (u * Qabs x + u * Qabs y))%Q by ring.
      apply Qplus_le_compat.
      - eapply Qle_trans; [exact H3|]. rewrite !(Qmult_comm u). apply Qmult_le_compat_r; assumption.
      - apply Qplus_le_compat; assumption. }
    exists re, im. split; [exact M|]. split.
    - pose proof (KEY (a * c)%Q (- (b * d))%Q ac (- bd)%Q re) as K. rewrite Qabs_opp in K. apply K; [exact B1| |exact B5].
      setoid_replace (- bd - - (b * d))%Q with (- (bd - b * d))%Q by ring. rewrite Qabs_opp. exact B2.
    - exact (KEY (a * d)%Q (b * c)%Q ad bc im B3 B4 B6).
  Qed.
  (* without rounding the quotient is the exact one *)
  Theorem C137_complex_divide : forall k h l r p a b c d,
    (forall p' q, rnd p' q = Fin q) ->
    complexes h l (mkF p (Fin a)) (mkF p (Fin b)) -> complexes h r (mkF p (Fin c)) (mkF p (Fin d)) -> 0 < p ->
    ~ (c * c + d * d == 0)%Q ->
    exists e f, makes_c (arith2 (Precise k) Div l r) h (mkF p (Fin e)) (mkF p (Fin f)) /\
      (* (e + i f) (c + i d) = a + i b *)
      (e * c - f * d == a)%Q /\ (e * d + f * c == b)%Q.
  Proof.
    intros k h l r p a b c d HR (pa & pb & -> & Pa & Pb) (pc & pd & -> & Pc & Pd) Hp NZ.
    destruct (Complex_Div2_run rnd f64 h pa pb pc pd p a b c d HR Hp Pa Pb Pc Pd NZ) as (t & k1 & k2 & e & f & E & Z1 & Z2 & V1 & V2).
    exists e, f. split; [|split; rewrite V1, V2; field; exact NZ].
    apply complex_dispatch. cbn [call2]. pose proof (znth_some_range _ _ _ Z1). pose proof (znth_some_range _ _ _ Z2).
    exists (zlen h + k1), (zlen h + k2), (h ++ t). split; [exact E|]. split; [lia|]. split; [lia|].
    rewrite !znth_new by lia. split; [exact Z1|]. split; [exact Z2|apply unchanged_app].
  Qed.
End CLAIMS.

(* one third with 200 bits *)
Notation A1 := (arith1 near root (round_fl 53) (fun x => x) (fun x => x)).
Notation A2 := (arith2 near (round_fl 53) (fun x => x) (fun x y => x)).
Example C137_example : makes (A2 (Precise 200) Div (VS 1) (VF 0)) [CFlt (mkF 200 (Fin 3))] (mkF 200 (Fin (nearest 200 (1 # 3)))).
Proof.
  pose proof (C137_divide near root (round_fl 53) (fun x => x) (fun x => x) (fun x y => x) 200 [CFlt (mkF 200 (Fin 3))] (VS 1) (VF 0) 200 200 (nearest 200 (nearest 53 1)) 3 eq_refl) as T.
  assert (E : nearest 200 (nearest 53 1) = 1%Q) by (vm_compute; reflexivity). rewrite E in T. 
  apply T; try lia; try discriminate; [|apply taken_float; reflexivity].
  rewrite <- E. exact (taken_int near (round_fl 53) 200 _ 1).
Qed.
(* ÷3 with 200 bits has only 53 *)
Theorem C137_reciprocal_refuted :
  makes (A1 (Precise 200) Rec (VF 0)) [CFlt (mkF 200 (Fin 3))] (mkF 53 (Fin (nearest 53 (1 # 3)))) /\
  ~ (nearest 53 (1 # 3) == nearest 200 (1 # 3))%Q.
Proof.
  split; [|vm_compute; discriminate]. eexists _, _. split; [vm_compute; reflexivity|]. split; [vm_compute; discriminate|]. split; [reflexivity|].
  intros p c Hp. pose proof (znth_some_range _ _ _ Hp) as R. cbn in R. assert (p = 0) by lia. subst p. exact Hp.
Qed.
(* an integer of more than 53 bits enters the tower rounded, whatever the precision *)
Theorem C137_import_refuted : exists n, 0 < n < 2 ^ 63 /\
  makes (A2 (Precise 200) Add (VS n) (VF 0)) [CFlt (mkF 200 (Fin 0))] (mkF 200 (Fin (inject_Z (n - 1)))).
Proof.
  exists (2 ^ 53 + 1). split; [lia|]. eexists _, _. split; [vm_compute; reflexivity|]. split; [vm_compute; discriminate|]. split; [vm_compute; reflexivity|].
  intros p c Hp. pose proof (znth_some_range _ _ _ Hp) as R. cbn in R. assert (p = 0) by lia. subst p. exact Hp.
Qed.
(* a negative base panics, also with an integer exponent: ¯2*2 *)
Theorem C137_power_refuted : fst (A2 (Precise 200) Pow (VF 0) (VF 1) [CFlt (mkF 200 (Fin (-2))); CFlt (mkF 200 (Fin 2))]) = Panic.
Proof. vm_compute. reflexivity. Qed.
(* 0J0÷0J0 is +infinity, 0.0÷0.0 is not a number *)
Theorem C137_zero_refuted :
  fst (A2 (Precise 200) Div (VC 0 0) (VC 0 0) [CFlt (mkF 200 (Fin 0))]) = Ok (VX "inf") /\
  fst (A2 (Precise 200) Div (VF 0) (VF 0) [CFlt (mkF 200 (Fin 0))]) = Ok (VX "NaN").
Proof. vm_compute. split; reflexivity. Qed.
Print Assumptions C137_add. Print Assumptions C137_divide. Print Assumptions C137_complex_multiply. Print Assumptions C137_complex_error. Print Assumptions C137_complex_divide.
