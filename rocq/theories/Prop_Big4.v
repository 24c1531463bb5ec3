(* Prop_Big4.v -- functions of one argument on floats of any precision and
   complex numbers, and the use of a number as an index: C137, C136. *)
From Coq Require Import String QArith Qabs Qround Qfield Lia.
From Verif Require Import Base M_Array S_Array P_Array Eff M_Number M_Big S_Big P_Big P_Big2 P_Big3 P_Big4 P_Big6 Prop_Big Prop_Big2.
Open Scope Z_scope.

(* m leaves a float of precision p with the value q *)
Definition is_now (m : eff heap bval) (h : heap) (p : Z) (q : Q) : Prop :=
  exists v h' q', m h = (Ok v, h') /\ floats h' v (mkF p (Fin q')) /\ (q' == q)%Q /\ unchanged h h'.

Lemma unchanged_t (h t : heap) : unchanged h (h ++ t).
Proof. intros p c Hp. apply znth_old, Hp. Qed.
Lemma arith1_some rnd sqt f64 fexp flog k o v h w h' :
  call1 rnd sqt f64 fexp flog o v h = (Ok (Some w), h') -> arith1 rnd sqt f64 fexp flog (Precise k) o v h = (Ok w, h').
Proof. intros E. unfold arith1. rewrite (ebind_ok _ _ _ _ _ E). reflexivity. Qed.
Lemma index_value z n : i_toindex z = Some n <-> z = n /\ minint <= n <= maxint.
Proof.
  unfold i_toindex. destruct ((minint <=? z) && (z <=? maxint)) eqn:E.
  - apply andb_true_iff in E. destruct E. split; [intros X; injection X as ->; lia|intros [-> _]; reflexivity].
  - split; [discriminate|]. intros [-> H]. apply andb_false_iff in E. lia.
Qed.
Lemma integer_den q n : (q == inject_Z n)%Q -> Qred q = inject_Z n.
Proof. intros H. rewrite (Qred_complete _ _ H). unfold inject_Z, Qred. pose proof (Z.ggcd_gcd n 1) as G. pose proof (Z.ggcd_correct_divisors n 1) as D. destruct (Z.ggcd n 1) as [g [aa bb]]. cbn in G, D. rewrite Z.gcd_1_r in G. subst g. destruct D as [D1 D2]. rewrite Z.mul_1_l in *. subst. reflexivity. Qed.

Section CLAIMS.
  Context (rnd : Z -> Q -> fl) (sqt : Z -> Q -> fl) (f64 : fl -> fl).
  Context (fexp flog : flt -> flt) (fpow : flt -> flt -> flt).
  Notation arith1 := (arith1 rnd sqt f64 fexp flog).

  (* An exact number can be used as an index, a length or a count exactly when
     its value is an integer of 64 bits. *)
  Theorem C136_index : forall h v x, stands h v x ->
    exists o, toindex f64 v h = (Ok o, h) /\ forall n, o = Some n <-> (x == inject_Z n)%Q /\ minint <= n <= maxint.
  Proof. clear rnd sqt fexp flog fpow.
    assert (I1 : forall a b, (inject_Z a == inject_Z b)%Q <-> a = b) by (intros; unfold Qeq; cbn; lia).
    intros h v x [b|n Hn|p n Hp|p q Hp Hq]; cbn [toindex].
    - eexists; split; [reflexivity|]. intros n. rewrite I1. split; [intros E; injection E as <-; destruct b; unfold minint, maxint; cbn; lia|]. intros [<- _]. destruct b; reflexivity.
    - eexists; split; [reflexivity|]. intros m. rewrite I1. split; [intros E; injection E as <-; lia|]. intros [-> _]. reflexivity.
    - eexists. split; [rewrite (ebind_ok _ _ _ _ _ (geti_at _ _ _ Hp)); reflexivity|]. intros m. rewrite I1. apply index_value.
    - eexists. split; [rewrite (ebind_ok _ _ _ _ _ (getr_at _ _ _ Hp)); reflexivity|]. intros m. unfold r_toindex. rewrite Hq. split.
      + destruct (Pos.eqb (Qden q) 1) eqn:E; [|discriminate]. apply Pos.eqb_eq in E. rewrite index_value. intros [<- R]. split; [|exact R]. unfold Qeq, inject_Z. cbn. rewrite E. lia.
      + intros [E R]. apply integer_den in E. rewrite Hq in E. subst q. cbn [Qden inject_Z Qnum]. apply index_value. auto.
  Qed.
  (* a float can, if float64 holds the integer *)
  Theorem C137_index : forall h p f x n, znth h p = Some (CFlt (mkF f (Fin x))) -> (x == inject_Z n)%Q -> minint <= n <= maxint -> f64 (Fin (inject_Z n)) = Fin (inject_Z n) ->
    toindex f64 (VF p) h = (Ok (Some n), h).
  Proof. clear rnd sqt fexp flog fpow.
    intros h p f x n Hp Hx R Hf. cbn [toindex]. rewrite (ebind_ok _ _ _ _ _ (getf_at _ _ _ Hp)). unfold eret, f_toindex. cbn [fv]. rewrite (integer_den _ _ Hx). cbn [inject_Z Qden Qnum].
    change (Pos.eqb 1 1) with true. cbv iota zeta. replace (n <? minint) with false by lia. replace (maxint <? n) with false by lia.
    change (Qmake n 1) with (inject_Z n). rewrite Hf. cbn [f_cmp]. rewrite (proj1 (Qeq_alt _ _)) by (symmetry; exact Hx). reflexivity.
  Qed.
  Theorem C137_index_not : forall h p f x, znth h p = Some (CFlt (mkF f (Fin x))) -> (forall n, ~ (x == inject_Z n)%Q) -> toindex f64 (VF p) h = (Ok None, h).
  Proof.
    clear rnd sqt fexp flog fpow. intros h p f x Hp N. cbn [toindex]. rewrite (ebind_ok _ _ _ _ _ (getf_at _ _ _ Hp)). cbn [fv]. unfold eret, f_toindex.
    destruct (Pos.eqb (Qden (Qred x)) 1) eqn:E; [|reflexivity]. exfalso. apply (N (Qnum (Qred x))). rewrite <- (Qred_correct x) at 1.
    apply Pos.eqb_eq in E. unfold Qeq, inject_Z. cbn. rewrite E. lia.
  Qed.
  (* a complex number can, if its imaginary part is zero and its real part can *)
  Theorem C137_index_complex : forall h p q f g x y, znth h p = Some (CFlt (mkF f (Fin x))) -> znth h q = Some (CFlt (mkF g (Fin y))) ->
    ((y == 0)%Q -> toindex f64 (VC p q) h = toindex f64 (VF p) h) /\ (~ (y == 0)%Q -> toindex f64 (VC p q) h = (Ok None, h)).
  Proof.
    clear rnd sqt fexp flog fpow. intros h p q f g x y Hp Hq. cbn [toindex]. rewrite (ebind_ok _ _ _ _ _ (getf_at _ _ _ Hq)). cbn [fv]. split; intros Y.
    - apply fsign0 in Y. rewrite Y. reflexivity.
    - destruct (fsign (Fin y) =? 0) eqn:E; [apply fsign0 in E; contradiction|reflexivity].
  Qed.

  (* ---------------- floats ---------------- *)
  Lemma Float_Neg_run h i p x : znth h i = Some (CFlt (mkF p (Fin x))) -> Float_Neg rnd i h = (Ok (Some (VF (zlen h))), h ++ [CFlt (mkF p (Fin (- x)))]).
  Proof.
    intros Hi. rewrite <- (app_nil_r h) at 1. unfold Float_Neg, some. fstep.
    erewrite ebind_ok by (apply run_fneg with (c := mkF p (Fin x)) (a := mkF p (Fin x)); [reflexivity|look|reflexivity]). listify. cbn [prec fv fl_neg]. unfold eret. rewrite Z.add_0_r. reflexivity.
  Qed.
  Theorem C137_negate : forall k h i p x, znth h i = Some (CFlt (mkF p (Fin x))) -> makes (arith1 (Precise k) Neg (VF i)) h (mkF p (Fin (- x))).
  Proof.
    intros k h i p x Hi. exists (zlen h), (h ++ [CFlt (mkF p (Fin (- x)))]). split.
    - apply arith1_some. cbn [call1]. apply Float_Neg_run, Hi.
    - split; [unfold fresh_after; lia|]. split; [apply znth_last|apply unchanged_t].
  Qed.
  Theorem C137_magnitude : forall k h i p x, znth h i = Some (CFlt (mkF p (Fin x))) -> is_now (arith1 (Precise k) Abs (VF i)) h p (Qabs x).
  Proof.
    intros k h i p x Hi. destruct (qsign x <? 0) eqn:N.
    - exists (VF (zlen h)), (h ++ [CFlt (mkF p (Fin (- x)))]), (- x)%Q. split; [|split; [exists (zlen h); split; [reflexivity|apply znth_last]|split; [|apply unchanged_t]]].
      + apply arith1_some. cbn [call1]. unfold Float_Abs. rewrite (ebind_ok _ _ _ _ _ (getf_at _ _ _ Hi)). cbn [fv fsign]. rewrite N. apply Float_Neg_run, Hi.
      + apply qsign_neg in N. rewrite Qabs_neg by (apply Qlt_le_weak; exact N). reflexivity.
    - exists (VF i), h, x. split; [|split; [exists i; auto|split; [|intros ? ? X; exact X]]].
      + apply arith1_some. cbn [call1]. unfold Float_Abs. rewrite (ebind_ok _ _ _ _ _ (getf_at _ _ _ Hi)). cbn [fv fsign]. rewrite N. reflexivity.
      + assert (P : (0 <= x)%Q). { destruct (Qlt_le_dec x 0) as [M|M]; [|exact M]. apply qsign_neg in M. congruence. } rewrite Qabs_pos by exact P. reflexivity.
  Qed.
  Theorem C137_sign : forall k h i p x, znth h i = Some (CFlt (mkF p (Fin x))) ->
    exists s, arith1 (Precise k) Sgn (VF i) h = (Ok (VS s), h) /\ (s = 1 <-> (0 < x)%Q) /\ (s = 0 <-> (x == 0)%Q) /\ (s = -1 <-> (x < 0)%Q).
  Proof.
    intros k h i p x Hi. exists (Z.sgn (Qnum x)). split.
    - apply arith1_some. cbn [call1]. unfold Float_Sgn. rewrite (ebind_ok _ _ _ _ _ (getf_at _ _ _ Hi)). reflexivity.
    - unfold Qlt, Qeq. cbn. rewrite !Z.mul_1_r. lia.
  Qed.
  (* rounding down and up goes through float64 *)
  Theorem C137_floor_partial : forall k h i p x y, znth h i = Some (CFlt (mkF p (Fin x))) -> 0 < p -> f64 (Fin x) = Fin y ->
    makes (arith1 (Precise k) Floor (VF i)) h (mkF p (rnd p (inject_Z (Qfloor y)))) /\
    makes (arith1 (Precise k) Ceil (VF i)) h (mkF p (rnd p (inject_Z (Qceiling y)))).
  Proof.
    intros k h i p x y Hi Hp Hf.
    assert (R : forall g : fl -> fl, forall z, g (Fin y) = Fin z -> Float_round rnd f64 g i h = (Ok (Some (VF (zlen h))), h ++ [CFlt (mkF p (rnd p z))])).
    { intros g z Hg. rewrite <- (app_nil_r h) at 1. unfold Float_round, some. fstep. fstep. unfold f_setf64. rewrite ebind_assoc. erewrite ebind_ok by (apply getf_at; look). cbn [fv prec]. rewrite Hf, Hg.
      replace (p =? 0) with false by lia. erewrite ebind_ok by (apply run_set_t with (c0 := CFlt (mkF p (Fin x))); reflexivity). listify. unfold eret. rewrite Z.add_0_r. reflexivity. }
    split; [exists (zlen h), (h ++ [CFlt (mkF p (rnd p (inject_Z (Qfloor y))))])|exists (zlen h), (h ++ [CFlt (mkF p (rnd p (inject_Z (Qceiling y))))])];
      (split; [apply arith1_some; cbn [call1]; apply R; reflexivity|split; [unfold fresh_after; lia|split; [apply znth_last|apply unchanged_t]]]).
  Qed.
  (* the logarithm of a negative float is not computed, the other ones are those of package bigfloat *)
  Theorem C137_logarithm : forall k h i p x, znth h i = Some (CFlt (mkF p (Fin x))) ->
    ((0 <= x)%Q -> makes (arith1 (Precise k) Log (VF i)) h (flog (mkF p (Fin x)))) /\
    ((x < 0)%Q -> exists h', arith1 (Precise k) Log (VF i) h = (Err, h') /\ unchanged h h').
  Proof.
    intros k h i p x Hi. split; intros S.
    - exists (zlen h), (h ++ [CFlt (flog (mkF p (Fin x)))]). split; [|split; [unfold fresh_after; lia|split; [apply znth_last|apply unchanged_t]]].
      apply arith1_some. cbn [call1]. unfold Float_Log. rewrite (ebind_ok _ _ _ _ _ (getf_at _ _ _ Hi)). cbn [fv fsign].
      destruct (qsign x <? 0) eqn:N; [apply qsign_neg in N; exfalso; apply (Qlt_not_le _ _ N S)|]. reflexivity.
    - apply qsign_neg in S. assert (C : call1 rnd sqt f64 fexp flog Log (VF i) h = (Ok None, h)).
      { cbn [call1]. unfold Float_Log. rewrite (ebind_ok _ _ _ _ _ (getf_at _ _ _ Hi)). cbn [fv fsign]. rewrite S. reflexivity. }
      exists (h ++ [CFlt (mkF p (Fin x)); CFlt (mkF 0 (Fin 0))]). split; [|apply unchanged_t].
      unfold M_Big.arith1. rewrite (ebind_ok _ _ _ _ _ C). cbn [class_of]. change (arith1_loop rnd sqt f64 fexp flog 4 (Precise k) Log (VF i)) with
        (let! r := call1 rnd sqt f64 fexp flog Log (VF i) in match r with Some w => eret w | None => let! u := uptype rnd f64 (Precise k) (VF i) in match u with Some v' => arith1_loop rnd sqt f64 fexp flog 3 (Precise k) Log v' | None => efail end end).
      rewrite (ebind_ok _ _ _ _ _ C). cbn [uptype].
      match goal with |- ?m h = _ => replace (m h) with (m (h ++ [])) by (rewrite app_nil_r; reflexivity) end.
      unfold some. repeat fstep. reflexivity.
  Qed.

  (* ---------------- complex numbers ---------------- *)
  Theorem C137_complex_negate : forall k h v p a b, complexes h v (mkF p (Fin a)) (mkF p (Fin b)) ->
    makes_c (arith1 (Precise k) Neg v) h (mkF p (Fin (- a))) (mkF p (Fin (- b))) /\ makes_c (arith1 (Precise k) Conj v) h (mkF p (Fin a)) (mkF p (Fin (- b))).
  Proof.
    intros k h v p a b (pa & pb & -> & Pa & Pb).
    split; exists (zlen h + 0), (zlen h + 1); (eexists; split; [apply arith1_some; cbn [call1];
      match goal with |- ?m h = _ => replace (m h) with (m (h ++ [])) by (rewrite app_nil_r; reflexivity) end;
      unfold Complex_Neg, Complex_Conj, ccopy, some; repeat fstep;
      repeat (erewrite ebind_ok by (first [apply run_fneg with (c := mkF p (Fin a)) (a := mkF p (Fin a)); [reflexivity|look|reflexivity]|apply run_fneg with (c := mkF p (Fin b)) (a := mkF p (Fin b)); [reflexivity|look|reflexivity]]); listify; cbn [prec fv fl_neg]);
      reflexivity
    |unfold fresh_after; split; [lia|]; split; [lia|]; split; [rewrite znth_new by lia; reflexivity|]; split; [rewrite znth_new by lia; reflexivity|apply unchanged_t]]).
  Qed.
  (* without rounding the reciprocal is the exact one *)
  Theorem C137_complex_reciprocal : forall k h v p a b, (forall p' q, rnd p' q = Fin q) -> complexes h v (mkF p (Fin a)) (mkF p (Fin b)) -> 0 < p -> ~ (a * a + b * b == 0)%Q ->
    exists e f, makes_c (arith1 (Precise k) Rec v) h (mkF p (Fin e)) (mkF p (Fin f)) /\ (e * a - f * b == 1)%Q /\ (e * b + f * a == 0)%Q.
  Proof.
    intros k h v p a b HR (pa & pb & -> & Pa & Pb) Hp NZ.
    set (t0 := [CFlt (mkF p (Fin 1)); CFlt (mkF p (Fin 0))]). set (h1 := h ++ t0).
    assert (P1 : znth h1 (zlen h + 0) = Some (CFlt (mkF p (Fin 1)))) by (unfold h1; rewrite znth_new by lia; reflexivity).
    assert (P2 : znth h1 (zlen h + 1) = Some (CFlt (mkF p (Fin 0)))) by (unfold h1; rewrite znth_new by lia; reflexivity).
    destruct (Complex_Div2_run rnd f64 h1 (zlen h + 0) (zlen h + 1) pa pb p 1 0 a b HR Hp P1 P2 (znth_old _ _ _ _ Pa) (znth_old _ _ _ _ Pb) NZ) as (t & k1 & k2 & e & f & E & Z1 & Z2 & V1 & V2).
    exists e, f. split; [|split; rewrite V1, V2; field; exact NZ].
    pose proof (znth_some_range _ _ _ Z1). pose proof (znth_some_range _ _ _ Z2). assert (L1 : zlen h1 = zlen h + 2) by (unfold h1; rewrite zlen_app; reflexivity).
    exists (zlen h1 + k1), (zlen h1 + k2), (h1 ++ t). split.
    - apply arith1_some. cbn [call1]. unfold Complex_Div, ccopy.
      match goal with |- ?m h = _ => replace (m h) with (m (h ++ [])) by (rewrite app_nil_r; reflexivity) end. repeat fstep.
      erewrite ebind_ok by (apply run_fsetint with (c := mkF p (Fin a)); [reflexivity|cbn [prec]; lia]). listify. cbn [prec fround]. rewrite HR.
      erewrite ebind_ok by (apply run_fsetint with (c := mkF p (Fin b)); [reflexivity|cbn [prec]; lia]). listify. cbn [prec fround]. rewrite HR. exact E.
    - unfold fresh_after. split; [lia|]. split; [lia|]. rewrite !znth_new by lia. split; [exact Z1|]. split; [exact Z2|]. intros q c Hq. apply znth_old. unfold h1. apply znth_old, Hq.
  Qed.
End CLAIMS.
(* the floor of a number of more than 53 bits is wrong, whatever the precision *)
Theorem C137_floor_refuted : exists x : Q, exists z : Z,
  makes (A1 (Precise 200) Floor (VF 0)) [CFlt (mkF 200 (Fin x))] (mkF 200 (Fin (inject_Z z))) /\ (x == inject_Z (z + 1))%Q.
Proof.
  exists (inject_Z (2 ^ 60 + 1)), (2 ^ 60). split; [|reflexivity]. eexists _, _. split; [vm_compute; reflexivity|]. split; [vm_compute; discriminate|]. split; [vm_compute; reflexivity|].
  intros p c Hp. pose proof (znth_some_range _ _ _ Hp) as R. cbn in R. assert (p = 0) by lia. subst p. exact Hp.
Qed.
(* a float that is an integer of 64 bits is refused as an index when float64 does not hold it *)
Theorem C137_index_refuted : exists n, minint <= n <= maxint /\ fst (toindex (round_fl 53) (VF 0) [CFlt (mkF 200 (Fin (inject_Z n)))]) = Ok None.
Proof. exists (2 ^ 60 + 1). split; [unfold minint, maxint; lia|]. vm_compute. reflexivity. Qed.
(* 4÷2 is an index, 2*70 is none *)
Example C136_index_example : toindex (round_fl 53) (VR 0) [CRat 2; CInt (2 ^ 70)] = (Ok (Some 2), [CRat 2; CInt (2 ^ 70)]) /\ fst (toindex (round_fl 53) (VI 1) [CRat 2; CInt (2 ^ 70)]) = Ok None.
Proof.
  destruct (C136_index (round_fl 53) [CRat 2; CInt (2 ^ 70)] (VR 0) 2) as (o & E & H); [constructor; reflexivity|].
  destruct (C136_index (round_fl 53) [CRat 2; CInt (2 ^ 70)] (VI 1) (inject_Z (2 ^ 70))) as (o2 & E2 & H2); [constructor; reflexivity|]. split.
  - rewrite E. rewrite (proj2 (H 2)); [reflexivity|]. split; [reflexivity|unfold minint, maxint; lia].
  - rewrite E2. cbn [fst]. destruct o2 as [n|]; [|reflexivity]. destruct (proj1 (H2 n) eq_refl) as [X Y]. exfalso. unfold Qeq, inject_Z, minint, maxint in *. cbn in X. lia.
Qed.
Print Assumptions C136_index. Print Assumptions C137_index. Print Assumptions C137_index_not. Print Assumptions C137_index_complex. Print Assumptions C137_negate. Print Assumptions C137_magnitude. Print Assumptions C137_sign. Print Assumptions C137_floor_partial. Print Assumptions C137_logarithm. Print Assumptions C137_complex_negate. Print Assumptions C137_complex_reciprocal.
