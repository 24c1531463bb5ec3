(* Cases of earlier properties that no theorem stated: found by changing the model at random
   and looking for changes that every theorem survived. *)
From Coq Require Import ZArith List Bool Lia String QArith.
From Verif Require Import Base S_Array P_Array M_Array M_Structural M_Search M_Number S_Number P_Number P_Tower M_Mount S_Strings M_Strings P_Strings Prop_Number.
Import ListNotations.
Local Open Scope Z_scope.

(* ---------------- C167: tally and depth ---------------- *)
(* ≢ counts the cells along the first axis: 1 for a scalar, 0 for the empty array *)
Theorem C167_tally : forall (A : Type) (x : A) (a : arr A) n r, dims a = n :: r ->
  tally (Scal x) = 1 /\ tally (@Emp A) = 0 /\ tally (Arr a) = n.
Proof. intros A x a n r E. cbn [tally shapeOf]. rewrite E. repeat split. Qed.
(* for a vector it is the number of elements *)
Theorem C167_tally_vector : forall (A : Type) (l : list A), tally (Arr (vec l)) = zlen l.
Proof. reflexivity. Qed.
(* ≡ is 0 exactly for the values that are no arrays *)
Theorem C167_depth : forall (A : Type) (V : val A), (depth V = 0 <-> exists x, V = Scal x) /\ (depth V = 1 <-> ~ exists x, V = Scal x).
Proof.
  intros A [x| |a]; cbn [depth]; repeat split; intros H; try lia; try discriminate; try (eexists; reflexivity);
  try (destruct H as (y & H); discriminate); try (exfalso; apply H; eexists; reflexivity); try (intros (y & Hy); discriminate).
Qed.
Print Assumptions C167_tally. Print Assumptions C167_tally_vector. Print Assumptions C167_depth.
Example C167_example : tally (Arr (mkArr [2; 3] [1; 2; 3; 4; 5; 6])) = 2 /\ tally (Arr (mkArr [0; 3] (@nil Z))) = 0 /\ depth (@Emp Z) = 1.
Proof. repeat split. Qed.

(* ---------------- C03: an empty array can be given any shape ---------------- *)
Theorem C03_empty_reshape : forall s, s <> [] -> Forall (fun n => 0 <= n) s -> exists a, EmptyReshape s = Ok (Some a) /\ wf a /\ dims a = s /\ forall i, inb s i -> elem a i = Some 0.
Proof.
  intros s Hs Hn. unfold EmptyReshape. destruct s as [|d r]; [contradiction|]. set (s := d :: r) in *.
  assert (E : Prod s = size s) by (apply Prod_size; discriminate). pose proof (size_nonneg s Hn) as P. rewrite E.
  replace (size s <? 0) with false by lia. eexists. split; [reflexivity|].
  assert (Z0 : forall n, zlen (zerosZ n) = Z.of_nat n) by (intros n; unfold zerosZ, zlen; rewrite repeat_length; reflexivity).
  assert (Z1 : forall n k, 0 <= k < Z.of_nat n -> znth (zerosZ n) k = Some 0) by (intros n k H; unfold zerosZ; apply znth_repeat; lia).
  assert (W : wf (mkArr s (zerosZ (Z.to_nat (size s))))) by (split; [discriminate|]; split; [exact Hn|]; cbn [elems dims]; rewrite Z0; lia).
  split; [exact W|]. split; [reflexivity|]. intros i Hi. unfold elem. cbn [elems dims]. apply Z1. pose proof (pos_range s i Hi). lia.
Qed.
Print Assumptions C03_empty_reshape.
Example C03_empty_example : EmptyReshape [2; 0; 3] = Ok (Some (mkArr [2; 0; 3] [])) /\ EmptyReshape [2] = Ok (Some (vec [0; 0])).
Proof. split; reflexivity. Qed.

(* ---------------- C48: the least common multiple and gcd of zero and of fractions ---------------- *)
(* ∧ on integers that are not truth values, in every tower: if the product fits in 64 bits it
   is the least common multiple *)
Theorem C48_lcm : forall P (M : methods P) (t : tower P) i j, fits i -> fits j -> fits (i * j) -> i * j <> minint ->
  ~ (0 <= i <= 1 /\ 0 <= j <= 1) ->
  arith2 M t (logical M LAnd) (VNum (NI i)) (VNum (NI j)) = Ok (VNum (NI (Z.lcm i j))).
Proof.
  intros P M t i j Fi Fj Fp Hm Hb. apply arith2_direct; [reflexivity|]. unfold logical, asNum. cbn [obind].
  assert (TB : ToBool M (NI i) = None \/ ToBool M (NI j) = None).
  { unfold ToBool, ToIndex. destruct (Z.ltb_spec i 0), (Z.ltb_spec 1 i), (Z.ltb_spec j 0), (Z.ltb_spec 1 j); cbn [orb]; try (left; reflexivity); try (right; reflexivity); lia. }
  replace (match ToBool M (NI i), ToBool M (NI j) with
    | Some l, Some r' => Ok (Some (vbool (l && r'))) | _, _ => lcm M (VNum (NI i)) (Some (VNum (NI j))) end) with (lcm M (VNum (NI i)) (Some (VNum (NI j))))
    by (destruct TB as [-> | ->]; [|destruct (ToBool M (NI i))]; reflexivity).
  unfold lcm, asNum. cbn [obind]. rewrite !IsZero_int.
  destruct (Z.eqb_spec i 0) as [->|Hi]; [reflexivity|]. destruct (Z.eqb_spec j 0) as [->|Hj]; [rewrite Z.lcm_0_r; reflexivity|].
  unfold oksome, mul2, with_int. cbn [obind]. unfold int_mul2. rewrite (wrap_id _ Fp). cbn [abs some_int obind]. 
  assert (EA : int_abs (i * j) = Z.abs (i * j)).
  { unfold int_abs. destruct (Z.ltb_spec (i * j) 0); [|lia]. rewrite wrap_id; [lia|]. unfold fits, minint in *. lia. }
  rewrite EA. unfold oksome, gcd, asNum. cbn [obind]. rewrite !IsZero_int. replace (i =? 0) with false by lia. replace (j =? 0) with false by lia.
  unfold with_int. cbn [obind].
  assert (G0 : 0 < Z.gcd i j). { pose proof (Z.gcd_nonneg i j). assert (Z.gcd i j <> 0); [|lia]. intros E0. apply Z.gcd_eq_0_l in E0. contradiction. }
  assert (EP : Z.abs (i * j) = Z.lcm i j * Z.gcd i j).
  { pose proof (Z.gcd_divide_r i j) as [k Hk]. unfold Z.lcm. rewrite Hk at 1 2. rewrite Z.div_mul by lia. rewrite !Z.abs_mul, (Z.abs_eq (Z.gcd i j)) by lia. lia. }
  assert (L0 : 0 < Z.lcm i j). { pose proof (Z.lcm_nonneg i j). assert (Z.lcm i j <> 0); [|lia]. intros E0. apply Z.lcm_eq_0 in E0. tauto. }
  assert (FG : fits (Z.gcd i j) /\ fits (Z.abs (i * j))) by (unfold fits, minint in *; nia).
  unfold int_gcd. rewrite (wrap_id _ (proj1 FG)). unfold div2, with_int.
  rewrite (proj2 (int_div2_spec _ _ (proj2 FG) (proj1 FG) ltac:(lia) (Z.lcm i j))) by (split; lia). reflexivity.
Qed.
Print Assumptions C48_lcm.
(* the product is computed first and wraps around: the result need not be a multiple of either,
   although the least common multiple fits *)
Theorem C48_lcm_overflow_refuted : forall P (M : methods P) (t : tower P),
  arith2 M t (logical M LAnd) (VNum (NI (2 ^ 40))) (VNum (NI (2 ^ 40))) = Ok (VNum (NI 0)) /\
  Z.lcm (2 ^ 40) (2 ^ 40) = 2 ^ 40.
Proof.
  intros P M t. split; [|reflexivity]. apply arith2_direct; [reflexivity|]. vm_compute. reflexivity.
Qed.
Print Assumptions C48_lcm_overflow_refuted.
(* zero: x∧0 is 0 and x∨0 is x, for every number x of the tower that is no truth value *)
Theorem C48_zero : forall P (M : methods P) (x : num P), ToBool M x = None ->
  (forall z, IsZero M z = true -> logical M LAnd (VNum x) (Some (VNum z)) = Ok (Some (VNum (NI 0))) /\ logical M LAnd (VNum z) (Some (VNum x)) = Ok (Some (VNum (NI 0))) /\
    logical M LOr (VNum x) (Some (VNum z)) = Ok (Some (VNum x)) /\ logical M LOr (VNum z) (Some (VNum x)) = Ok (Some (VNum x))).
Proof.
  intros P M x Hx z Hz. assert (NZ : IsZero M x = false) by (unfold IsZero; rewrite Hx; reflexivity).
  unfold logical, asNum. cbn [obind]. rewrite Hx. unfold lcm, gcd, asNum. cbn [obind]. rewrite NZ, Hz.
  destruct (ToBool M z); repeat split.
Qed.
Print Assumptions C48_zero.
(* the greatest common divisor of fractions: the largest fraction of which both are multiples *)
Definition common_measure (x y g : Q) : Prop := (0 < g)%Q /\ exists m n, (x == inject_Z m * g)%Q /\ (y == inject_Z n * g)%Q /\ Z.gcd m n = 1.
Theorem C48_gcd_fractions : forall rf (x y : Q), ToBool (bigM rf) (NT (BR x)) = None -> ToBool (bigM rf) (NT (BR y)) = None ->
  exists g, arith2 (bigM rf) bigT (logical (bigM rf) LOr) (VNum (NT (BR x))) (VNum (NT (BR y))) = Ok (VNum (NT (BR g))) /\ common_measure x y g.
Proof.
  intros rf x y Hx Hy. assert (N : forall q, ToBool (bigM rf) (NT (BR q)) = None -> ~ (q == 0)%Q).
  { intros q Hq E. apply (C52_exact rf (NT (BR q)) false) in E. congruence. }
  pose proof (N x Hx) as Nx. pose proof (N y Hy) as Ny.
  destruct x as [a b], y as [c d]. set (x := Qmake a b) in *. set (y := Qmake c d) in *.
  set (k := Z.gcd (a * Zpos d) (c * Zpos b)).
  exists (Qred (Qmake k (Z.to_pos (Zpos b * Zpos d)))). split.
  - apply arith2_direct; [reflexivity|]. unfold logical, asNum. cbn [obind]. rewrite Hx. unfold gcd, asNum. cbn [obind]. unfold IsZero. rewrite Hx, Hy. reflexivity.
  - assert (a <> 0) by (intros ->; apply Nx; reflexivity). assert (c <> 0) by (intros ->; apply Ny; reflexivity).
    assert (K : 0 < k). { pose proof (Z.gcd_nonneg (a * Zpos d) (c * Zpos b)). assert (k <> 0); [|unfold k in *; lia]. intros E0. apply Z.gcd_eq_0_l in E0. nia. }
    destruct (Z.gcd_divide_l (a * Zpos d) (c * Zpos b)) as [m Hm]. destruct (Z.gcd_divide_r (a * Zpos d) (c * Zpos b)) as [n Hn]. fold k in Hm, Hn.
    split; [rewrite Qred_correct; unfold Qlt; cbn [Qnum Qden]; lia|]. exists m, n.
    assert (TP : Zpos (Z.to_pos (Zpos b * Zpos d)) = Zpos b * Zpos d) by reflexivity.
    split; [|split].
    + rewrite Qred_correct. unfold Qeq, Qmult, inject_Z, x. cbn [Qnum Qden]. rewrite Pos.mul_1_l. cbn [Z.mul Z.to_pos]. rewrite Pos2Z.inj_mul. nia.
    + rewrite Qred_correct. unfold Qeq, Qmult, inject_Z, y. cbn [Qnum Qden]. rewrite Pos.mul_1_l. cbn [Z.mul Z.to_pos]. rewrite Pos2Z.inj_mul. nia.
    + assert (k = k * Z.gcd m n); [|nia]. unfold k at 1. rewrite Hm, Hn, Z.gcd_mul_mono_r_nonneg by lia. lia.
Qed.
Print Assumptions C48_gcd_fractions.
Example C48_gcd_example : exists g, arith2 (bigM (fun q => q)) bigT (logical (bigM (fun q => q)) LOr) (VNum (NT (BR (3 # 4)))) (VNum (NT (BR (5 # 6)))) = Ok (VNum (NT (BR g))) /\ common_measure (3 # 4) (5 # 6) g.
Proof. apply C48_gcd_fractions; reflexivity. Qed.
Example C48_lcm_example : forall P (M : methods P) (t : tower P), arith2 M t (logical M LAnd) (VNum (NI (-4))) (VNum (NI 6)) = Ok (VNum (NI 12)).
Proof. intros. apply C48_lcm; unfold fits, minint; lia. Qed.

(* ---------------- C75: values without a common type differ ---------------- *)
Theorem C75_no_common_type : forall P (M : methods P) (t : tower P) a b, go_eq M (VNum a) (VNum b) = Ok false -> SameType M t a b = Err -> isEqual M t (VNum a) (VNum b) = Ok false.
Proof. intros P M t a b E S. unfold isEqual. rewrite E, S. reflexivity. Qed.
Theorem C75_complex_time : forall C T (cM : methods C) (tM : methods T) f2c c2t c d, c2t c = None ->
  isEqual (dM cM tM) (dT f2c c2t) (VNum (NT (DC c))) (VNum (NT (DT d))) = Ok false /\ isEqual (dM cM tM) (dT f2c c2t) (VNum (NT (DT d))) (VNum (NT (DC c))) = Ok false.
Proof.
  intros C T cM tM f2c c2t c d E. split; (apply C75_no_common_type; [reflexivity|]); cbn -[zat]; change (Pos.to_nat 1) with 1%nat; cbn -[zat]; rewrite ?E; cbn -[zat]; reflexivity.
Qed.
Print Assumptions C75_no_common_type. Print Assumptions C75_complex_time.

(* ---------------- C118: package variables ---------------- *)
Theorem C118_arrow : forall x, hasArrow x = true <-> exists a b, x = a ++ nArrow ++ b.
Proof.
  intros x. unfold hasArrow. pose proof (Index_none x nArrow) as N. destruct (Index x nArrow) as [[a r]|] eqn:E.
  - split; [intros _|reflexivity]. destruct (Index_some _ _ _ _ E) as (Ex & (z & ->) & _). exists a, z. exact Ex.
  - split; [discriminate|]. intros (a & b & ->). exfalso. apply (proj1 N eq_refl). exists a, b. reflexivity.
Qed.
Print Assumptions C118_arrow.

(* ---------------- C155: a line that cannot be read ---------------- *)
From Verif Require Import M_Scan M_Syntax M_Parse M_Eval M_Execute M_Session S_Eval.
Theorem C155_unreadable : forall D X (L : lang D X) (G : grammar D) C line n s,
  (Scan C line = Err \/ exists toks, Scan C line = Ok toks /\ parse G toks = Err) ->
  ParseAndEval L G C n line s = Some (Err, s) /\ ExecuteText L G C n line s = Some (Err, s).
Proof.
  intros D X L G C line n s H. unfold ParseAndEval, ExecuteText, ParseLine. destruct H as [-> | (toks & -> & E)]; cbn [obind]; [split; reflexivity|]. rewrite E. split; reflexivity.
Qed.
Print Assumptions C155_unreadable.

(* ---------------- C161: where selective assignment is refused ---------------- *)
(* an expression derived by a dyadic operator can only be assigned to for ⍂; no target, no
   assignment *)
Theorem C161_dyadic_operator : forall D X (G : lang D X) run op o os lo ro l r s, l_operators G op = o :: os -> odyadic o = true -> op <> "⍂"%string ->
  derived_select G run op lo ro l r s = Some (Err, s).
Proof.
  intros D X G run op o os lo ro l r s E1 E2 E3. unfold derived_select. rewrite E1, E2. apply String.eqb_neq in E3. rewrite E3. reflexivity.
Qed.
Theorem C161_no_target : forall D X (G : lang D X) run s, evalAssign (X := X) run (@None (expr D)) s = Some (Err, s).
Proof. reflexivity. Qed.
Print Assumptions C161_dyadic_operator. Print Assumptions C161_no_target.

(* ---------------- C141: truth values, and the kind of a uniform array ---------------- *)
From Verif Require Import M_Dispatch S_Dispatch P_Dispatch3 P_Dispatch5 P_Dispatch6 P_Dispatch7.
Section C141.
Local Notation Arr := M_Dispatch.Arr.
Local Notation ToBoolArray := M_Dispatch.ToBoolArray.
Lemma idx_all xs zs : Forall2 index_of xs zs -> toIdxs xs = Some zs.
Proof. induction 1 as [|x z xs zs H _ IH]; [reflexivity|]. cbn [toIdxs]. rewrite IH. destruct H. reflexivity. Qed.
Lemma bool_loop dims zs V : (if forallb (fun x => match toIdx x with Some n => (0 <=? n) && (n <=? 1) | None => false end) (map intOf zs)
   then propagate None (Arr ABool dims (map (fun x => boolOf (match toIdx x with Some n => n | None => 0 end)) (map intOf zs))) else Ok (V, false))
   = if forallb (fun z => (0 <=? z) && (z <=? 1)) zs then Ok (Arr ABool dims (map (fun z => Num NBool (Some z)) zs), true) else Ok (V, false).
Proof.
  replace (forallb _ (map intOf zs)) with (forallb (fun z => (0 <=? z) && (z <=? 1)) zs) by (induction zs as [|z zs IH]; cbn [map forallb]; [reflexivity|rewrite IH; reflexivity]).
  rewrite map_map. reflexivity.
Qed.
(* an array of numbers is an array of truth values exactly if all are 0 or 1, and then the same
   numbers in the same shape *)
Theorem C141_truth_values : forall k d xs zs, k <> ABool -> xs <> [] -> Forall2 index_of xs zs -> 
  (Forall (fun z => z = 0 \/ z = 1) zs -> ToBoolArray None (Arr k d xs) = Ok (Arr ABool d (map (fun z => Num NBool (Some z)) zs), true)) /\
  (~ Forall (fun z => z = 0 \/ z = 1) zs -> ToBoolArray None (Arr k d xs) = Ok (Arr k d xs, false)).
Proof.
  intros k d xs zs Hk Hx F.
  assert (E : ToBoolArray None (Arr k d xs) = if forallb (fun z => (0 <=? z) && (z <=? 1)) zs then Ok (Arr ABool d (map (fun z => Num NBool (Some z)) zs), true) else Ok (Arr k d xs, false)).
  { unfold ToBoolArray. replace (isKind ABool (Arr k d xs)) with false by (destruct k; try reflexivity; congruence).
    destruct (kind_dec k AInt) as [->|NK].
    - cbn [ToIndexArray propagate obind fst snd negb]. rewrite <- bool_loop.
      assert (X : map toIdx xs = map toIdx (map intOf zs)) by (clear -F; induction F as [|x z xs zs H _ IH]; [reflexivity|]; cbn [map]; rewrite IH; destruct H; reflexivity).
      assert (X1 : forall (f : option Z -> bool), forallb (fun x => f (toIdx x)) xs = forallb (fun x => f (toIdx x)) (map intOf zs)).
      { intros f. clear -F. induction F as [|x z xs zs H _ IH]; [reflexivity|]. cbn [map forallb]. rewrite IH. destruct H. reflexivity. }
      rewrite (X1 (fun o => match o with Some n => (0 <=? n) && (n <=? 1) | None => false end)).
      assert (X2 : forall (f : option Z -> value), map (fun x => f (toIdx x)) xs = map (fun x => f (toIdx x)) (map intOf zs)).
      { intros f. clear -F. induction F as [|x z xs zs H _ IH]; [reflexivity|]. cbn [map]. rewrite IH. destruct H. reflexivity. }
      rewrite (X2 (fun o => boolOf (match o with Some n => n | None => 0 end))). reflexivity.
    - assert (TT : ToIndexArray None (Arr k d xs) = Ok (Arr AInt d (map intOf zs), true)).
      { replace (ToIndexArray None (Arr k d xs)) with (if zlen xs =? 0 then Ok (emptyArray, true) else match toIdxs xs with Some l => Ok (Arr AInt d (map intOf l), true) | None => Ok (Arr k d xs, false) end) by (destruct k; (reflexivity || congruence)).
        destruct xs as [|x xs]; [contradiction|]. replace (zlen (x :: xs) =? 0) with false by (unfold zlen; cbn [List.length]; lia). rewrite (idx_all _ _ F). reflexivity. }
      rewrite TT. cbn [obind fst snd negb]. apply bool_loop. }
  rewrite E. split; intros H.
  - replace (forallb _ zs) with true; [reflexivity|]. symmetry. apply forallb_forall. intros z I. rewrite Forall_forall in H. destruct (H z I); subst; reflexivity.
  - destruct (forallb _ zs) eqn:B; [|reflexivity]. exfalso. apply H. apply Forall_forall. intros z I. rewrite forallb_forall in B. specialize (B z I). lia.
Qed.
(* an array that the function gets in compact form holds only elements of that form *)
Theorem C141_kind : forall c xs, Forall proper_number xs -> unifyKind c xs <> AMixed -> Forall (fits_kind (unifyKind c xs)) xs.
Proof.
  intros c xs PN. destruct xs as [|x r]; [intros H; cbn in H; contradiction|]. unfold unifyKind. destruct (forallb (same_type x) r) eqn:E; [|contradiction].
  rewrite forallb_forall in E. intros H. rewrite Forall_forall in PN. apply Forall_forall. intros y I. pose proof (PN y I) as P.
  assert (T : same_type x y = true) by (destruct I as [<-|I]; [destruct x as [[]| | | | | | |[]| | |]; try contradiction; try reflexivity; destruct c; contradiction|apply E; exact I]).
  clear E I PN. destruct x as [t i|st| | | | | | | | |]; try contradiction; destruct y as [t' i'|st'| | | | | | | | |]; try discriminate T.
  - destruct c; [|contradiction]. destruct t, t'; try discriminate T; try contradiction; cbn [numkind fits_kind proper_number] in *; eauto; try (destruct P as [-> | ->]; auto); destruct P as [z ->]; eauto.
  - cbn [fits_kind]. eauto.
Qed.
End C141.
Print Assumptions C141_truth_values. Print Assumptions C141_kind.
Example C141_truth_example : ToBoolArray None (M_Dispatch.Arr AFloat [2] [Num NFloat (Some 0); Num NFloat (Some 1)]) = Ok (M_Dispatch.Arr ABool [2] [Num NBool (Some 0); Num NBool (Some 1)], true).
Proof. apply (C141_truth_values AFloat [2] _ [0; 1]); [discriminate|discriminate|repeat constructor|repeat constructor; lia]. Qed.
