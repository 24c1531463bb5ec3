(* Prop_Number.v -- C47 to C52 and C75: numbers. *)
From Coq Require Import String QArith Qround Qabs Floats.SpecFloat Permutation.
From Coq Require Qcanon.
From Verif Require Import Base M_Number S_Number P_Number P_Tower P_Float P_Order.
Open Scope Z_scope.

(* ================ C47 ================ *)
(* + - x on integers (booleans count as 0 and 1), in every tower *)
Theorem C47_add_sub_mul :
  forall P (M : methods P) (t : tower P) (a b : num P) i j, as_int a = Some i -> as_int b = Some j ->
  (exists r, arith2 M t (add2 M) (VNum a) (VNum b) = Ok (VNum (NI r)) /\ wraps_to (i + j) r) /\
  (exists r, arith2 M t (sub2 M) (VNum a) (VNum b) = Ok (VNum (NI r)) /\ wraps_to (i - j) r) /\
  (exists r, arith2 M t (mul2 M) (VNum a) (VNum b) = Ok (VNum (NI r)) /\ wraps_to (i * j) r).
Proof.
  intros P M t a b i j Ha Hb. repeat split; eexists; (split; [|apply wrap_spec]).
  - apply (arith2_ints M t int_add2 (padd2 M)); assumption.
  - apply (arith2_ints M t int_sub2 (psub2 M)); assumption.
  - apply (arith2_ints M t int_mul2 (pmul2 M)); assumption.
Qed.
Print Assumptions C47_add_sub_mul.
Theorem C47_exact_when_it_fits :
  forall P (M : methods P) (t : tower P) (a b : num P) i j, as_int a = Some i -> as_int b = Some j ->
  (fits (i + j) -> arith2 M t (add2 M) (VNum a) (VNum b) = Ok (VNum (NI (i + j)))) /\
  (fits (i - j) -> arith2 M t (sub2 M) (VNum a) (VNum b) = Ok (VNum (NI (i - j)))) /\
  (fits (i * j) -> arith2 M t (mul2 M) (VNum a) (VNum b) = Ok (VNum (NI (i * j)))).
Proof.
  intros P M t a b i j Ha Hb. destruct (C47_add_sub_mul P M t a b i j Ha Hb) as ((r1 & E1 & W1) & (r2 & E2 & W2) & (r3 & E3 & W3)).
  assert (U : forall z r, wraps_to z r -> fits z -> r = z) by (intros z r Hw Hf; apply (wraps_unique z); [exact Hw|split; [exact Hf|exists 0; lia]]).
  repeat split; intros F; [rewrite E1, (U _ _ W1 F)|rewrite E2, (U _ _ W2 F)|rewrite E3, (U _ _ W3 F)]; reflexivity.
Qed.
Print Assumptions C47_exact_when_it_fits.
(* an exact quotient is an integer ... *)
Theorem C47_div_exact :
  forall P (M : methods P) (t : tower P) i j q, fits i -> fits j -> fits q -> j <> 0 -> i = q * j ->
  arith2 M t (div2 M) (VNum (NI i)) (VNum (NI j)) = Ok (VNum (NI q)).
Proof.
  intros P M t i j q Fi Fj Fq Hj E. apply arith2_direct; [reflexivity|]. unfold div2, with_int.
  rewrite (proj2 (int_div2_spec i j Fi Fj ltac:(unfold fits, minint in *; lia) q)); [reflexivity|]. split; [exact Hj|lia].
Qed.
Print Assumptions C47_div_exact.
(* ... any other division is done by the number type above Int *)
Theorem C47_div_passed_on :
  forall P (M : methods P) (t : tower P) i j p q nu, fits i -> fits j -> j = 0 \/ (forall k, i <> k * j) ->
  Import t (NI i) = NT p -> Import t (NI j) = NT q -> ptype M p = ptype M q ->
  assoc (Numbers t) (ptype M p) = Some nu -> Class nu = 0 ->
  arith2 M t (div2 M) (VNum (NI i)) (VNum (NI j)) = arith2 M t (div2 M) (VNum (NT p)) (VNum (NT q)).
Proof.
  intros P M t i j p q nu Fi Fj H Hp Hq Ht Hn Hc. eapply arith2_pass; try eassumption. unfold div2, with_int.
  destruct (int_div2 i j) as [r|] eqn:E; [|reflexivity]. exfalso.
  assert (Hx : ~ (i = minint /\ j = -1)) by (intros (E1 & E2); destruct H as [H|H]; [lia|apply (H (- i)); lia]).
  apply (int_div2_spec i j Fi Fj Hx) in E. destruct E as (E1 & E2). destruct H as [H|H]; [contradiction|exact (H r (eq_sym E2))].
Qed.
Print Assumptions C47_div_passed_on.
(* with exact numbers the quotient is always the exact rational *)
Theorem C47_div_big :
  forall rf i j, fits i -> fits j -> j <> 0 -> ~ (i = minint /\ j = -1) ->
  exists n, arith2 (bigM rf) bigT (div2 (bigM rf)) (VNum (NI i)) (VNum (NI j)) = Ok (VNum n) /\ Qeq (qval n) (inject_Z i / inject_Z j).
Proof.
  intros rf i j Fi Fj Hj Hx.
  destruct (int_div2 i j) as [r|] eqn:E.
  - apply (int_div2_spec i j Fi Fj Hx) in E. destruct E as (_ & E). exists (NI r). split.
    + apply arith2_direct; [reflexivity|]. unfold div2, with_int. rewrite (proj2 (int_div2_spec i j Fi Fj Hx r)); [reflexivity|split; assumption].
    + cbn [qval]. rewrite <- E, inject_Z_mult. field. intros H. apply Hj. unfold Qeq in H. cbn in H. lia.
  - assert (Hnd : forall k, i <> k * j).
    { intros k Hk. rewrite (proj2 (int_div2_spec i j Fi Fj Hx k)) in E; [discriminate|]. split; [exact Hj|lia]. }
    rewrite (C47_div_passed_on _ (bigM rf) bigT i j (BI i) (BI j) (mkNumeric 0 _) Fi Fj (or_intror Hnd) eq_refl eq_refl eq_refl eq_refl eq_refl).
    assert (Hi : i <> 0) by (intros ->; apply (Hnd 0); lia).
    exists (NT (BR (Qred (inject_Z i / inject_Z j)))). split; [|cbn [qval]; apply Qred_correct].
    assert (N : forall R, div2 (bigM rf) (VNum (NT (BI i))) R = match R with Some (VNum (NT (BI y))) => Ok (big_idiv2 i y) | Some (VNum (NT _)) => Panic | _ => Panic end).
    { intros [[[b|z|[z|q]]|t s]|]; reflexivity. }
    assert (D : big_idiv2 i j = None).
    { unfold big_idiv2. replace (i =? 0) with false by lia. replace (j =? 0) with false by lia. cbn [andb].
      destruct (Z.eqb_spec (euclid_quot i j * j) i) as [Hq|Hq]; [|reflexivity]. exfalso. exact (Hnd _ (eq_sym Hq)). }
    unfold arith2. cbn [vtype_eqb typeOf ntype_eqb ptype bigM]. rewrite Z.eqb_refl, N, D. cbn [obind].
    rewrite same_type_eq by reflexivity. cbn [obind ToNumeric lookup ptype bigM bigT Numbers big_numbers assoc tBI tBR Z.eqb Class].
    change (Z.to_nat _) with 2%nat. cbn [arith2_loop]. cbn [option_map]. rewrite N, D. cbn [obind Uptype fst lookup ptype bigM assoc Numbers tBI tBR bigT big_numbers].
    cbn [option_map div2 with_int pdiv2 bigM bi2]. unfold big_rdiv2.
    replace (Qeq_bool (inject_Z i) 0) with false. 2:{ symmetry. apply not_true_is_false. intros H. apply Qeq_bool_eq in H. unfold Qeq in H. cbn in H. lia. }
    replace (Qeq_bool (inject_Z j) 0) with false. 2:{ symmetry. apply not_true_is_false. intros H. apply Qeq_bool_eq in H. unfold Qeq in H. cbn in H. lia. }
    reflexivity.
Qed.
Print Assumptions C47_div_big.
(* with the default numbers an inexact quotient is the IEEE double quotient, an
   infinite or undefined one is an exception value *)
Theorem C47_div_default :
  forall C T (cM : methods C) (tM : methods T) f2c c2t i j, fits i -> fits j -> j = 0 \/ (forall k, i <> k * j) ->
  arith2 (dM cM tM) (dT f2c c2t) (div2 (dM cM tM)) (VNum (NI i)) (VNum (NI j)) =
  Ok (match SFdiv 53 1024 (f_of_int i) (f_of_int j) with
      | S754_nan => VOth excT "NaN" | S754_infinity false => VOth excT "inf" | S754_infinity true => VOth excT "-inf"
      | f => VNum (NT (DF f)) end).
Proof.
  intros C T cM tM f2c c2t i j Fi Fj H.
  rewrite (C47_div_passed_on _ (dM cM tM) (dT f2c c2t) i j (DF (f_of_int i)) (DF (f_of_int j)) (mkNumeric 0 _) Fi Fj H eq_refl eq_refl eq_refl eq_refl eq_refl).
  unfold arith2. cbn [vtype_eqb typeOf ntype_eqb ptype dM]. rewrite Z.eqb_refl. cbn [div2 with_int pdiv2 dM d2 obind]. unfold f_exc, f_div, fprec, femax.
  destruct (SFdiv 53 1024 (f_of_int i) (f_of_int j)) as [| [|] | |]; reflexivity.
Qed.
Print Assumptions C47_div_default.
(* What goes wrong (int.go:98-108, elementary.go:180-191): the one quotient that
   does not fit wraps around, and booleans whose quotient is not an integer make
   the conversion loop dereference nil, because Int is not in the table of numbers. *)
Theorem C47_div_refuted :
  forall P (M : methods P) (t : tower P),
  arith2 M t (div2 M) (VNum (NI (- 2 ^ 63))) (VNum (NI (-1))) = Ok (VNum (NI (- 2 ^ 63))) /\
  arith2 M t (div2 M) (VNum (NB true)) (VNum (NB false)) = Panic.
Proof.
  intros P M t. split.
  - apply arith2_direct; reflexivity.
  - unfold arith2. cbn [vtype_eqb typeOf ntype_eqb div2 with_int obind SameType ToNumeric Class].
    pose proof (zlen_nonneg (Numbers t)). replace (Z.to_nat (zlen (Numbers t) - -2)) with (S (S (Z.to_nat (zlen (Numbers t))))) by lia.
    reflexivity.
Qed.
Print Assumptions C47_div_refuted.
Example C47_example :
  let M := bigM (fun q => q) in
  arith2 M bigT (add2 M) (VNum (NI (2 ^ 63 - 1))) (VNum (NB true)) = Ok (VNum (NI (- 2 ^ 63))) /\
  arith2 M bigT (div2 M) (VNum (NI 7)) (VNum (NI 2)) = Ok (VNum (NT (BR (7 # 2)))) /\
  arith2 M bigT (div2 M) (VNum (NI 8)) (VNum (NI (-2))) = Ok (VNum (NI (-4))) /\
  arith2 M bigT (div2 M) (VNum (NI 7)) (VNum (NI 0)) = Ok (VOth excT "inf").
Proof. repeat split; vm_compute; reflexivity. Qed.

(* ================ C48 ================ *)
Theorem C48_factorial :
  forall i, (0 <= i <= 20 -> int_gamma i = Some (factorial (Z.to_nat i))) /\ (i < 0 \/ 20 < i -> int_gamma i = None).
Proof. exact int_gamma_spec. Qed.
Print Assumptions C48_factorial.
(* the factorial fits in 64 bits exactly up to 20, so nothing is given away *)
Theorem C48_factorial_limit : forall n, fits (factorial n) <-> (n <= 20)%nat.
Proof.
  intros n. split; intros H.
  - destruct (Nat.le_gt_cases n 20) as [|Hn]; [assumption|]. exfalso. unfold fits in H.
    assert (G : 2 ^ 63 <= factorial n); [|lia].
    replace n with (21 + (n - 21))%nat by lia. generalize (n - 21)%nat as k. clear. induction k as [|k IH]; [vm_compute; discriminate|].
    replace (21 + S k)%nat with (S (21 + k)) by lia. cbn [factorial]. nia.
  - pose proof (factorial_le20 n H). pose proof (factorial_pos n). unfold fits. assert (factorial 20 < 2 ^ 63) by (vm_compute; reflexivity). lia.
Qed.
Print Assumptions C48_factorial_limit.
Theorem C48_binomial :
  forall L R, fits L -> fits R -> 0 <= L -> 0 <= R ->
  (L <= R -> R <= 20 -> binomial_int L R = Some (pascal (Z.to_nat R) (Z.to_nat L))) /\
  (L <= R -> 20 < R -> binomial_int L R = None) /\
  (R < L -> binomial_int L R = Some 0).
Proof.
  intros L R FL FR HL HR. unfold binomial_int. rewrite (gamma2_pospos 2 L R HL HR FL FR).
  repeat split; intros H.
  - intros H20. destruct (Z.leb_spec L R); [|lia]. exact (proj1 (gamma2_pos_spec L R HL H FR) H20).
  - intros H20. destruct (Z.leb_spec L R); [|lia]. exact (proj2 (gamma2_pos_spec L R HL H FR) H20).
  - destruct (Z.leb_spec L R); [lia|reflexivity].
Qed.
Print Assumptions C48_binomial.
(* any other result is the generalized binomial coefficient *)
Theorem C48_binomial_general :
  forall L R v, fits L -> fits R -> binomial_int L R = Some v ->
  (0 <= L -> v * factorial (Z.to_nat L) = falling R (Z.to_nat L)) /\
  (L < 0 -> 0 <= R \/ R < L -> v = 0) /\
  (L <= R < 0 -> v * factorial (Z.to_nat (R - L)) = falling R (Z.to_nat (R - L))).
Proof.
  intros L R v FL FR H. split; [|split].
  - intros HL. apply gamma2_value; assumption.
  - intros HL [HR|HR]; destruct (gamma2_value_neg L R v FL FR HL H) as (V1 & V2 & V3); auto.
  - intros HR. destruct (gamma2_value_neg L R v FL FR ltac:(lia) H) as (V1 & V2 & V3). auto.
Qed.
Print Assumptions C48_binomial_general.
(* ∨ on integers: a divisor of both that every common divisor divides *)
Theorem C48_gcd :
  forall P (M : methods P) (t : tower P) i j, fits i -> fits j -> ~ (i = minint /\ j = minint) -> ~ (i = minint /\ j = 0) -> ~ (i = 0 /\ j = minint) ->
  exists g, arith2 M t (gcd M) (VNum (NI i)) (VNum (NI j)) = Ok (VNum (NI g)) /\
    (g | i) /\ (g | j) /\ (forall d, (d | i) -> (d | j) -> (d | g)) /\ (i <> 0 -> j <> 0 -> 0 < g).
Proof.
  intros P M t i j Fi Fj H1 H2 H3.
  assert (Z0 : forall z, IsZero M (NI z) = (z =? 0)).
  { intros z. unfold IsZero, ToBool, ToIndex. destruct (Z.ltb_spec z 0); cbn [orb]; [symmetry; apply Z.eqb_neq; lia|].
    destruct (Z.ltb_spec 1 z); [symmetry; apply Z.eqb_neq; lia|]. destruct (Z.eqb_spec z 0); reflexivity. }
  assert (E : forall v, gcd M (VNum (NI i)) (Some (VNum (NI j))) = Ok (Some v) -> arith2 M t (gcd M) (VNum (NI i)) (VNum (NI j)) = Ok v).
  { intros v Hv. apply arith2_direct; [reflexivity|exact Hv]. }
  unfold gcd at 1 in E. unfold asNum in E. cbn [obind] in E. rewrite !Z0 in E.
  destruct (Z.eqb_spec i 0) as [->|Hi].
  { exists j. split; [apply E; reflexivity|]. split; [apply Z.divide_0_r|]. split; [apply Z.divide_refl|]. split; [tauto|lia]. }
  destruct (Z.eqb_spec j 0) as [->|Hj].
  { exists i. split; [apply E; reflexivity|]. split; [apply Z.divide_refl|]. split; [apply Z.divide_0_r|]. split; [tauto|lia]. }
  exists (Z.gcd i j).
  assert (Hg : fits (Z.gcd i j)).
  { pose proof (Z.gcd_nonneg i j). unfold fits, minint in *. split; [lia|].
    pose proof (Z.gcd_divide_l i j) as D1. pose proof (Z.gcd_divide_r i j) as D2.
    apply Z.divide_abs_r in D1, D2. apply Z.divide_pos_le in D1; [|lia]. apply Z.divide_pos_le in D2; [|lia]. lia. }
  split; [apply E; unfold with_int, int_gcd; rewrite (wrap_id _ Hg); reflexivity|].
  split; [apply Z.gcd_divide_l|]. split; [apply Z.gcd_divide_r|]. split; [intros d; apply Z.gcd_greatest|].
  intros _ _. pose proof (Z.gcd_nonneg i j). assert (Z.gcd i j <> 0); [|lia]. intros E0. apply Z.gcd_eq_0_l in E0. contradiction.
Qed.
Print Assumptions C48_gcd.
Example C48_example :
  int_gamma 20 = Some 2432902008176640000 /\ binomial_int 2 5 = Some 10 /\ binomial_int 3 (-2) = Some (-4) /\
  int_gcd 12 (-18) = 6.
Proof. repeat split; vm_compute; reflexivity. Qed.

(* ================ C49 ================ *)
Lemma IsZero_int {P} (M : methods P) z : IsZero M (NI z) = (z =? 0).
Proof.
  unfold IsZero, ToBool, ToIndex. destruct (Z.ltb_spec z 0); cbn [orb]; [symmetry; apply Z.eqb_neq; lia|].
  destruct (Z.ltb_spec 1 z); [symmetry; apply Z.eqb_neq; lia|]. destruct (Z.eqb_spec z 0); reflexivity.
Qed.
Lemma abs2_int {P} (M : methods P) t l r : l <> 0 -> fits l ->
  abs2 M t (VNum (NI l)) (Some (VNum (NI r))) =
  match int_div2 r l with None => Ok None | Some q => Ok (Some (VNum (NI (int_sub2 r (int_mul2 l q))))) end.
Proof.
  intros Hl Fl. unfold abs2, asNum. cbn [obind]. rewrite IsZero_int. replace (l =? 0) with false by lia.
  unfold sameOr. cbn [SameType typeOf ntype_eqb bool2int]. unfold oksome, add2, with_int. cbn [obind].
  unfold int_add2. rewrite Z.add_0_r, wrap_id by exact Fl.
  unfold div2, with_int. destruct (int_div2 r l) as [q|]; cbn [option_map obind]; [|reflexivity].
  cbn [floor some_int obind]. unfold some_int. cbn [obind]. reflexivity.
Qed.
(* 0|R is R *)
Theorem C49_zero :
  forall P (M : methods P) (t : tower P) r, fits r -> arith2 M t (abs2 M t) (VNum (NI 0)) (VNum (NI r)) = Ok (VNum (NI r)).
Proof.
  intros P M t r Fr. apply arith2_direct; [reflexivity|]. unfold abs2, asNum. cbn [obind]. rewrite IsZero_int. cbn [Z.eqb].
  unfold sameOr. cbn [SameType typeOf ntype_eqb bool2int]. unfold oksome, add2, with_int. cbn [obind].
  change (int_add2 0 1) with 1. unfold div2, with_int.
  rewrite (proj2 (int_div2_spec r 1 Fr ltac:(unfold fits; lia) ltac:(lia) r)) by lia. cbn [option_map obind].
  cbn [floor]. unfold some_int. cbn [obind SameType typeOf ntype_eqb mul2 with_int sub2]. unfold int_mul2, int_sub2. rewrite Z.mul_0_l, (wrap_id 0) by (unfold fits; lia).
  rewrite Z.sub_0_r, wrap_id by exact Fr. reflexivity.
Qed.
Print Assumptions C49_zero.
(* a multiple of L has residue 0, in every tower *)
Theorem C49_multiple :
  forall P (M : methods P) (t : tower P) l q, fits l -> fits q -> fits (q * l) -> l <> 0 ->
  arith2 M t (abs2 M t) (VNum (NI l)) (VNum (NI (q * l))) = Ok (VNum (NI 0)).
Proof.
  intros P M t l q Fl Fq Fm Hl. apply arith2_direct; [reflexivity|]. rewrite abs2_int by assumption.
  rewrite (proj2 (int_div2_spec (q * l) l Fm Fl ltac:(unfold fits, minint in *; lia) q)) by (split; [exact Hl|reflexivity]).
  unfold int_sub2, int_mul2. rewrite (wrap_id (l * q)) by (rewrite Z.mul_comm; exact Fm). replace (q * l - l * q) with 0 by lia. reflexivity.
Qed.
Print Assumptions C49_multiple.
(* default numbers: for arguments up to 2^52 the residue is R mod L (Z.modulo has
   the sign of L), as an Int if it is 0 and as the double of that value otherwise *)
Theorem C49_default :
  forall C T (cM : methods C) (tM : methods T) f2c c2t l r, l <> 0 -> Z.abs l <= 2 ^ 52 -> Z.abs r <= 2 ^ 52 ->
  arith2 (dM cM tM) (dT f2c c2t) (abs2 (dM cM tM) (dT f2c c2t)) (VNum (NI l)) (VNum (NI r)) =
  Ok (VNum (if r mod l =? 0 then NI 0 else NT (DF (f_of_int (r mod l))))).
Proof.
  intros C T cM tM f2c c2t l r Hl Bl Br.
  assert (Fl : fits l) by (unfold fits; lia). assert (Fr : fits r) by (unfold fits; lia).
  destruct (Z.eqb_spec (r mod l) 0) as [E|E].
  - assert (D : r = (r / l) * l) by (pose proof (Z.div_mod r l Hl); lia).
    assert (Fq : fits (r / l)). { unfold fits. assert (Z.abs (r / l) <= Z.abs r) by nia. lia. }
    rewrite D. apply C49_multiple; [exact Fl|exact Fq|rewrite <- D; exact Fr|exact Hl].
  - assert (N : abs2 (dM cM tM) (dT f2c c2t) (VNum (NI l)) (Some (VNum (NI r))) = Ok None).
    { rewrite abs2_int by assumption. destruct (int_div2 r l) as [q|] eqn:Eq; [|reflexivity]. exfalso.
      apply (int_div2_spec r l Fr Fl ltac:(unfold minint; lia)) in Eq. destruct Eq as (_ & Eq). apply E. rewrite <- Eq. apply Z.mod_mul. exact Hl. }
    rewrite (arith2_pass (dM cM tM) (dT f2c c2t) _ l r (DF (f_of_int l)) (DF (f_of_int r)) (mkNumeric 0 _) N eq_refl eq_refl eq_refl eq_refl eq_refl).
    apply arith2_direct; [reflexivity|].
    destruct (residue_double r l Br Bl Hl E) as ((s & m & e & Hd) & Hres).
    assert (Rl : repr (f_of_int l) (Rdefinitions.IZR l)) by (apply of_int_repr; lia).
    assert (NZ : exists sl ml el, f_of_int l = S754_finite sl ml el /\ IsZero (dM cM tM) (NT (DF (f_of_int l))) = false).
    { destruct Rl as (b & Eb & Fb & Rb). rewrite <- Eb. destruct b as [sb|sb| |sb mb eb Hb]; try discriminate.
      - exfalso. cbn in Rb. apply Hl. apply RIneq.eq_IZR. symmetry. exact Rb.
      - exists sb, mb, eb. split; [reflexivity|]. unfold IsZero, ToBool. cbn [ToIndex pidx dM]. unfold f_idx.
        set (n := f_to_int _). destruct (SFeqb (f_of_int n) (BinarySingleNaN.B2SF (BinarySingleNaN.B754_finite sb mb eb Hb))) eqn:Ef; [|reflexivity].
        destruct (Z.ltb_spec n 0); [reflexivity|]. destruct (Z.ltb_spec 1 n); [reflexivity|]. cbn [orb].
        destruct (Z.eqb_spec n 0) as [E0|E0]; [|reflexivity]. exfalso. rewrite E0 in Ef. destruct sb; discriminate Ef. }
    destruct NZ as (sl & ml & el & El & HZ).
    unfold abs2, asNum. cbn [obind]. rewrite HZ. unfold sameOr.
    assert (ST : SameType (dM cM tM) (dT f2c c2t) (NB false) (NT (DF (f_of_int l))) = Ok (NT (DF (S754_zero false)), NT (DF (f_of_int l)))) by reflexivity.
    rewrite ST. unfold oksome at 1. cbn [add2 with_int padd2 dM d2 obind].
    replace (f_add (f_of_int l) (S754_zero false)) with (f_of_int l) by (rewrite El; reflexivity).
    unfold vF. unfold oksome at 1. cbn [div2 with_int pdiv2 dM d2 obind]. rewrite Hd. cbn [f_exc]. unfold oksome at 1. cbn [floor pfloor dM obind].
    unfold vF. cbn [obind]. rewrite same_type_eq by reflexivity. unfold oksome. cbn [mul2 with_int pmul2 dM d2 obind sub2 psub2].
    unfold vF. cbn [obind]. rewrite <- Hd, Hres. reflexivity.
Qed.
Print Assumptions C49_default.
(* exact numbers: the residue is exact whenever the floor of the quotient is
   (big/rat.go:171-174 computes the floor through a double) *)
Theorem C49_big :
  forall rf l r, l <> 0 -> fits l -> fits r -> ~ (r = minint /\ l = -1) ->
  Qeq (rf (Qred (inject_Z r / inject_Z l))) (inject_Z (r / l)) ->
  exists n, arith2 (bigM rf) bigT (abs2 (bigM rf) bigT) (VNum (NI l)) (VNum (NI r)) = Ok (VNum n) /\ Qeq (qval n) (inject_Z (r mod l)).
Proof.
  intros rf l r Hl Fl Fr Hx Hrf.
  destruct (int_div2 r l) as [q|] eqn:Eq.
  - apply (int_div2_spec r l Fr Fl Hx) in Eq. destruct Eq as (_ & Eq). exists (NI 0). split.
    + rewrite <- Eq. apply C49_multiple; [exact Fl| |rewrite Eq; exact Fr|exact Hl].
      unfold fits, minint in *. assert (Z.abs q <= Z.abs r) by nia. destruct (Z.eq_dec l (-1)); lia || nia.
    + rewrite <- Eq, Z.mod_mul by exact Hl. reflexivity.
  - assert (Hnd : forall k, r <> k * l).
    { intros k Hk. rewrite (proj2 (int_div2_spec r l Fr Fl Hx k)) in Eq; [discriminate|]. split; [exact Hl|lia]. }
    assert (Hr : r <> 0) by (intros ->; apply (Hnd 0); lia).
    assert (N : abs2 (bigM rf) bigT (VNum (NI l)) (Some (VNum (NI r))) = Ok None) by (rewrite abs2_int by assumption; rewrite Eq; reflexivity).
    rewrite (arith2_pass (bigM rf) bigT _ l r (BI l) (BI r) (mkNumeric 0 _) N eq_refl eq_refl eq_refl eq_refl eq_refl).
    assert (Z1 : IsZero (bigM rf) (NT (BI l)) = false).
    { unfold IsZero, ToBool. cbn [ToIndex pidx bigM big_idx]. destruct ((minint <=? l) && (l <=? maxint)); [|reflexivity].
      destruct (Z.ltb_spec l 0); [reflexivity|]. destruct (Z.ltb_spec 1 l); [reflexivity|]. cbn [orb]. destruct (Z.eqb_spec l 0); [lia|reflexivity]. }
    assert (Z2 : IsZero (bigM rf) (NT (BR (inject_Z l))) = false).
    { unfold IsZero, ToBool. cbn [ToIndex pidx bigM big_idx]. replace (Qred (inject_Z l)) with (inject_Z l).
      - cbn [inject_Z Qden Qnum Pos.eqb]. destruct ((minint <=? l) && (l <=? maxint)); [|reflexivity].
        destruct (Z.ltb_spec l 0); [reflexivity|]. destruct (Z.ltb_spec 1 l); [reflexivity|]. cbn [orb]. destruct (Z.eqb_spec l 0); [lia|reflexivity].
      - symmetry. apply Qcanon.Qred_identity. cbn. apply Z.gcd_1_r. }
    assert (D : big_idiv2 r l = None).
    { unfold big_idiv2. replace (r =? 0) with false by lia. replace (l =? 0) with false by lia. cbn [andb].
      destruct (Z.eqb_spec (euclid_quot r l * l) r) as [Hq|Hq]; [|reflexivity]. exfalso. exact (Hnd _ (eq_sym Hq)). }
    assert (N2 : abs2 (bigM rf) bigT (VNum (NT (BI l))) (Some (VNum (NT (BI r)))) = Ok None).
    { unfold abs2, asNum. cbn [obind]. rewrite Z1. unfold sameOr.
      assert (ST : SameType (bigM rf) bigT (NB false) (NT (BI l)) = Ok (NT (BI 0), NT (BI l))) by reflexivity. rewrite ST.
      unfold oksome at 1. cbn [add2 with_int padd2 bigM bi2 obind sBI]. unfold sBI. rewrite Z.add_0_r. unfold oksome at 1. cbn [div2 with_int pdiv2 bigM bi2 obind].
      rewrite D. reflexivity. }
    set (ql := inject_Z l). set (qr := inject_Z r).
    set (d := Qred (qr / Qred (ql + inject_Z 0))).
    assert (N3 : abs2 (bigM rf) bigT (VNum (NT (BR ql))) (Some (VNum (NT (BR qr)))) =
      Ok (Some (VNum (NT (BR (Qred (qr - Qred (ql * Qred (rf d))))))))).
    { unfold abs2, asNum. cbn [obind]. unfold ql at 1. rewrite Z2. unfold sameOr.
      assert (ST : SameType (bigM rf) bigT (NB false) (NT (BR ql)) = Ok (NT (BR (inject_Z 0)), NT (BR ql))) by reflexivity. fold ql. rewrite ST.
      unfold oksome at 1. cbn [add2 with_int padd2 bigM bi2 obind]. unfold sBR at 1. unfold oksome at 1. cbn [div2 with_int pdiv2 bigM bi2 obind]. unfold big_rdiv2.
      replace (Qeq_bool qr 0) with false. 2:{ symmetry. apply not_true_is_false. intros H. apply Qeq_bool_eq in H. unfold Qeq, qr in H. cbn in H. lia. }
      replace (Qeq_bool (Qred (ql + inject_Z 0)) 0) with false.
      2:{ symmetry. apply not_true_is_false. intros H. apply Qeq_bool_eq in H. rewrite Qred_correct in H. unfold ql, Qeq in H. cbn in H. lia. }
      cbn [andb]. unfold sBR at 1. fold d. unfold oksome at 1. cbn [floor pfloor bigM obind]. unfold sBR at 1. cbn [obind].
      rewrite same_type_eq by reflexivity. unfold oksome. cbn [mul2 with_int pmul2 bigM bi2 obind]. unfold sBR at 1. cbn [sub2 with_int psub2 bigM bi2]. reflexivity. }
    exists (NT (BR (Qred (qr - Qred (ql * Qred (rf d)))))). split.
    + unfold arith2. cbn [vtype_eqb typeOf ntype_eqb ptype bigM]. rewrite Z.eqb_refl, N2. cbn [obind]. rewrite same_type_eq by reflexivity.
      cbn [obind ToNumeric lookup ptype bigM bigT Numbers big_numbers assoc tBI tBR Z.eqb Class].
      change (Z.to_nat _) with 2%nat. cbn [arith2_loop]. cbn [option_map]. rewrite N2.
      cbn [obind Uptype fst lookup option_map]. fold ql qr. rewrite N3. reflexivity.
    + cbn [qval]. rewrite !Qred_correct.
      assert (Hd : d = Qred (qr / ql)).
      { apply Qred_complete. rewrite Qred_correct. unfold Qdiv. apply Qmult_comp; [reflexivity|]. apply Qinv_comp. rewrite Qplus_comm. apply Qplus_0_l. }
      rewrite Hd. unfold qr, ql in *. rewrite Hrf. rewrite <- inject_Z_mult. unfold Qminus. rewrite <- inject_Z_opp, <- inject_Z_plus.
      rewrite Z.mod_eq by exact Hl. replace (r + - (l * (r / l))) with (r - l * (r / l)) by lia. reflexivity.
Qed.
Print Assumptions C49_big.
(* what goes wrong: beyond 2^53 the doubles are too coarse; 3|2^60+1 (which is 2)
   comes out as 0 because 2^60+1 is rounded before the division *)
Theorem C49_large_refuted :
  forall C T (cM : methods C) (tM : methods T) f2c c2t,
  (2 ^ 60 + 1) mod 3 = 2 /\
  exists z, arith2 (dM cM tM) (dT f2c c2t) (abs2 (dM cM tM) (dT f2c c2t)) (VNum (NI 3)) (VNum (NI (2 ^ 60 + 1))) = Ok (VNum (NT (DF z))) /\
    f_to_int z <> 2.
Proof.
  intros. split; [vm_compute; reflexivity|]. eexists. split; [vm_compute; reflexivity|]. vm_compute. discriminate.
Qed.
Print Assumptions C49_large_refuted.
Example C49_example :
  (-7) mod 3 = 2 /\ 7 mod (-3) = -2 /\ Z.abs (-7) <= 2 ^ 52 /\
  arith2 (bigM (fun q => inject_Z (Qfloor q))) bigT (abs2 (bigM (fun q => inject_Z (Qfloor q))) bigT) (VNum (NI (-3))) (VNum (NI 7)) = Ok (VNum (NT (BR (-2 # 1)))).
Proof. repeat split; try (vm_compute; congruence). Qed.

(* ================ C50 ================ *)
(* integers, in every tower *)
Theorem C50_int :
  forall P (M : methods P) (t : tower P) c i j,
  exists b, arith2 M t (compare M c) (VNum (NI i)) (VNum (NI j)) = Ok (VNum (NB b)) /\ (b = true <-> cmp_spec c (i < j) (i = j) (j < i)).
Proof.
  intros P M t c i j.
  destruct (compare_spec M c (VNum (NI i)) (VNum (NI j)) (i <? j) (i =? j) (i < j) (i = j) (j < i)) as (b & Hb & H);
    [reflexivity|reflexivity|apply Z.ltb_lt|apply Z.eqb_eq|unfold exactly_one; lia|].
  exists b. split; [|exact H]. apply arith2_direct; [reflexivity|exact Hb].
Qed.
Print Assumptions C50_int.
(* exact numbers: any two numbers (Bool, Int, big integer, rational) are compared
   by value *)
Theorem C50_exact :
  forall rf c (a b : num bignum),
  exists r, arith2 (bigM rf) bigT (compare (bigM rf) c) (VNum a) (VNum b) = Ok (VNum (NB r)) /\
    (r = true <-> cmp_spec c (Qlt (qval a) (qval b)) (Qeq (qval a) (qval b)) (Qlt (qval b) (qval a))).
Proof.
  intros rf c a b. destruct (same_big_spec rf a b) as (a' & b' & HS & Ht & Ha & Hb & Hnu).
  destruct (big_less_eq rf a' b' Ht) as (l & e & Hl & He & Il & Ie).
  destruct (compare_spec (bigM rf) c (VNum a') (VNum b') l e _ _ _ Hl He Il Ie (Q_tri _ _)) as (r & Hr & H).
  exists r. split; [eapply arith2_total; eassumption|]. rewrite H. destruct c; cbn [cmp_spec]; rewrite Ha, Hb; reflexivity.
Qed.
Print Assumptions C50_exact.
Theorem C50_exact_one :
  forall x y : Q, exactly_one (Qlt x y) (Qeq x y) (Qlt y x).
Proof. exact Q_tri. Qed.
Print Assumptions C50_exact_one.
(* doubles that are not NaN: < is a strict total order, = its equality, and the
   other four comparisons follow *)
Theorem C50_float :
  forall C T (cM : methods C) (tM : methods T) f2c c2t c x y, x <> S754_nan -> y <> S754_nan ->
  exactly_one (SFltb x y = true) (SFeqb x y = true) (SFltb y x = true) /\
  exists r, arith2 (dM cM tM) (dT f2c c2t) (compare (dM cM tM) c) (VNum (NT (DF x))) (VNum (NT (DF y))) = Ok (VNum (NB r)) /\
    (r = true <-> cmp_spec c (SFltb x y = true) (SFeqb x y = true) (SFltb y x = true)).
Proof.
  intros C T cM tM f2c c2t c x y Hx Hy. split; [apply SF_tri; assumption|].
  destruct (compare_spec (dM cM tM) c (VNum (NT (DF x))) (VNum (NT (DF y))) (SFltb x y) (SFeqb x y) (SFltb x y = true) (SFeqb x y = true) (SFltb y x = true)) as (b & Hb & H);
    [reflexivity|reflexivity|reflexivity|reflexivity|apply SF_tri; assumption|].
  exists b. split; [|exact H]. apply arith2_direct; [reflexivity|exact Hb].
Qed.
Print Assumptions C50_float.
Theorem C50_float_order :
  forall x y z, x <> S754_nan -> y <> S754_nan -> z <> S754_nan ->
  (SFltb x y = true -> SFltb y z = true -> SFltb x z = true) /\
  (SFeqb x y = true -> SFeqb y z = true -> SFeqb x z = true) /\
  (SFeqb x y = true -> SFltb y z = true -> SFltb x z = true) /\
  (SFltb x y = true -> SFeqb y z = true -> SFltb x z = true).
Proof.
  intros x y z Hx Hy Hz. rewrite !SFltb_key, !SFeqb_key by assumption. repeat split; intros H1 H2.
  - eapply key_lt_trans; eassumption.
  - congruence.
  - rewrite H1. exact H2.
  - rewrite <- H2. exact H1.
Qed.
Print Assumptions C50_float_order.
(* and the order of doubles that come from integers up to 2^53 is that of the integers *)
Theorem C50_float_int :
  forall i j, Z.abs i <= 2 ^ 53 -> Z.abs j <= 2 ^ 53 ->
  (SFltb (f_of_int i) (f_of_int j) = true <-> i < j) /\ (SFeqb (f_of_int i) (f_of_int j) = true <-> i = j).
Proof.
  intros i j Hi Hj. destruct (of_int_repr i Hi) as (bi & <- & Fi & Ri), (of_int_repr j Hj) as (bj & <- & Fj & Rj).
  pose proof (BinarySingleNaN.Bcompare_correct 53 1024 bi bj Fi Fj) as C. rewrite Ri, Rj in C. unfold BinarySingleNaN.Bcompare in C.
  unfold SFltb, SFeqb. rewrite C. destruct (Raux.Rcompare_spec (Rdefinitions.IZR i) (Rdefinitions.IZR j)) as [H|H|H].
  - apply RIneq.lt_IZR in H. split; split; intros; try reflexivity; try discriminate; lia.
  - apply RIneq.eq_IZR in H. split; split; intros; try reflexivity; try discriminate; lia.
  - apply RIneq.lt_IZR in H. split; split; intros; try reflexivity; try discriminate; lia.
Qed.
Print Assumptions C50_float_int.
(* ⌊ and ⌈: one of the (unified) arguments, the smaller and the larger *)
Theorem C50_min_max :
  forall rf (a b : num bignum),
  exists m x, arith2 (bigM rf) bigT (min2 (bigM rf)) (VNum a) (VNum b) = Ok (VNum m) /\
              arith2 (bigM rf) bigT (max2 (bigM rf)) (VNum a) (VNum b) = Ok (VNum x) /\
    (Qeq (qval m) (qval a) \/ Qeq (qval m) (qval b)) /\ (Qeq (qval x) (qval a) \/ Qeq (qval x) (qval b)) /\
    Qle (qval m) (qval a) /\ Qle (qval m) (qval b) /\ Qle (qval a) (qval x) /\ Qle (qval b) (qval x).
Proof.
  intros rf a b. destruct (same_big_spec rf a b) as (a' & b' & HS & Ht & Ha & Hb & Hnu).
  destruct (big_less_eq rf a' b' Ht) as (l & e & Hl & _ & Il & _).
  exists (if l then a' else b'), (if l then b' else a'). split; [|split].
  - eapply arith2_total; [exact HS| |exact Hnu]. unfold min2, oksome. rewrite Hl. cbn [obind]. destruct l; reflexivity.
  - eapply arith2_total; [exact HS| |exact Hnu]. unfold max2, oksome. rewrite Hl. cbn [obind]. destruct l; reflexivity.
  - rewrite <- Ha, <- Hb. destruct l.
    + assert (L : Qlt (qval a') (qval b')) by (apply Il; reflexivity). apply Qlt_le_weak in L. repeat split; try (left; reflexivity); try (right; reflexivity); try exact L; apply Qle_refl.
    + assert (L : Qle (qval b') (qval a')) by (apply Qnot_lt_le; intros H; apply Il in H; discriminate). repeat split; try (left; reflexivity); try (right; reflexivity); try exact L; apply Qle_refl.
Qed.
Print Assumptions C50_min_max.
Theorem C50_min_max_int :
  forall P (M : methods P) (t : tower P) i j,
  arith2 M t (min2 M) (VNum (NI i)) (VNum (NI j)) = Ok (VNum (NI (Z.min i j))) /\
  arith2 M t (max2 M) (VNum (NI i)) (VNum (NI j)) = Ok (VNum (NI (Z.max i j))).
Proof.
  intros P M t i j. split; (apply arith2_direct; [reflexivity|]); unfold min2, max2, oksome; cbn [less obind]; destruct (Z.ltb_spec i j); f_equal; f_equal; f_equal; f_equal; lia.
Qed.
Print Assumptions C50_min_max_int.
(* what goes wrong: NaN (reachable as the difference of two overflowed products)
   is greater than everything, and everything is greater than NaN *)
Theorem C50_nan_refuted :
  forall C T (cM : methods C) (tM : methods T) f2c c2t x,
  f_sub (f_mul (f_of_int (2 ^ 62)) (S754_finite false (2 ^ 52) 970)) (f_mul (f_of_int (2 ^ 62)) (S754_finite false (2 ^ 52) 970)) = S754_nan /\
  arith2 (dM cM tM) (dT f2c c2t) (compare (dM cM tM) CGt) (VNum (NT (DF S754_nan))) (VNum (NT (DF x))) = Ok (VNum (NB true)) /\
  arith2 (dM cM tM) (dT f2c c2t) (compare (dM cM tM) CGt) (VNum (NT (DF x))) (VNum (NT (DF S754_nan))) = Ok (VNum (NB true)).
Proof.
  intros. split; [vm_compute; reflexivity|]. split; (apply arith2_direct; [reflexivity|]); cbn; destruct x; reflexivity.
Qed.
Print Assumptions C50_nan_refuted.
Example C50_example :
  let M := bigM (fun q => q) in
  arith2 M bigT (compare M CLt) (VNum (NI 1)) (VNum (NT (BR (3 # 2)))) = Ok (VNum (NB true)) /\
  arith2 M bigT (compare M CEq) (VNum (NB true)) (VNum (NT (BR (2 # 2)))) = Ok (VNum (NB true)) /\
  arith2 M bigT (max2 M) (VNum (NI 1)) (VNum (NT (BR (3 # 2)))) = Ok (VNum (NT (BR (3 # 2)))).
Proof. repeat split; vm_compute; reflexivity. Qed.

(* ================ C51 ================ *)
(* a set of number types is accepted exactly if their classes are 0..n-1 *)
Theorem C51_set_tower :
  forall P (numbers : list (Z * numeric P)) import,
  (exists t, SetTower numbers import = Ok t) <-> Permutation (map (fun e => Class (snd e)) numbers) (zseq (zlen numbers)).
Proof. exact @set_tower_ok. Qed.
Print Assumptions C51_set_tower.
Theorem C51_set_tower_index :
  forall P (numbers : list (Z * numeric P)) import t, SetTower numbers import = Ok t ->
  (forall ty nu, In (ty, nu) numbers -> znth (idx t) (Class nu) = Some nu) /\
  (forall c nu, znth (idx t) c = Some nu -> Class nu = c /\ exists ty, In (ty, nu) numbers).
Proof. intros P numbers import t H. destruct (set_tower_idx _ _ _ H) as (_ & _ & _ & H1 & H2). split; assumption. Qed.
Print Assumptions C51_set_tower_index.
(* numbers of one type, and a Bool with an Int *)
Theorem C51_same :
  forall P (M : methods P) (t : tower P) a b, typeOf M a = typeOf M b -> SameType M t a b = Ok (a, b).
Proof. exact @same_type_eq. Qed.
Print Assumptions C51_same.
Theorem C51_bool_int :
  forall P (M : methods P) (t : tower P) (x : bool) y, SameType M t (NB x) (NI y) = Ok (NI (if x then 1 else 0), NI y) /\ SameType M t (NI y) (NB x) = Ok (NI y, NI (if x then 1 else 0)).
Proof. intros. split; reflexivity. Qed.
Print Assumptions C51_bool_int.
(* otherwise Bools and Ints are imported, the number of the lower class is raised
   step by step to the other's class, the other is unchanged ([raised 0] relates
   a number to itself only) and both end with one type; unknown types and a
   failing step are errors; there is no panic *)
Theorem C51_general :
  forall P (M : methods P) (t : tower P), tower_ok M t -> forall a b,
  typeOf M a <> typeOf M b -> (forall x y, ~ (a = NB x /\ b = NI y)) -> (forall x y, ~ (a = NI x /\ b = NB y)) ->
  match SameType M t a b with
  | Ok (a', b') => exists ca cb, class_of M t (imported t a) = Some ca /\ class_of M t (imported t b) = Some cb /\
      raised M t (Z.to_nat (cb - ca)) (imported t a) a' /\ raised M t (Z.to_nat (ca - cb)) (imported t b) b' /\ typeOf M a' = typeOf M b'
  | Err => class_of M t (imported t a) = None \/ class_of M t (imported t b) = None \/
      exists ca cb, class_of M t (imported t a) = Some ca /\ class_of M t (imported t b) = Some cb /\
        ((ca < cb /\ forall a', ~ raised M t (Z.to_nat (cb - ca)) (imported t a) a') \/
         (cb < ca /\ forall b', ~ raised M t (Z.to_nat (ca - cb)) (imported t b) b'))
  | Panic => False
  end.
Proof. intros P M t Hok. exact (same_type_general M t Hok). Qed.
Print Assumptions C51_general.
(* the order of the arguments does not matter *)
Theorem C51_symmetric :
  forall P (M : methods P) (t : tower P), tower_ok M t -> forall a b,
  (forall a' b', SameType M t a b = Ok (a', b') <-> SameType M t b a = Ok (b', a')) /\
  (SameType M t a b = Err <-> SameType M t b a = Err) /\ SameType M t a b <> Panic.
Proof.
  intros P M t Hok a b. pose proof (same_type_comm M t Hok a b) as H1. pose proof (same_type_comm M t Hok b a) as H2.
  destruct (SameType M t a b) as [(u, v)| |] eqn:E1, (SameType M t b a) as [(w, x)| |] eqn:E2; try contradiction; try discriminate.
  - injection H1 as -> ->. split; [|split; [split; discriminate|discriminate]]. intros a' b'. split; intros E; injection E as -> ->; reflexivity.
  - split; [|split; [split; reflexivity|discriminate]]. intros a' b'. split; discriminate.
Qed.
Print Assumptions C51_symmetric.
(* the two towers of the program are well-formed; in the exact one the values are kept *)
Theorem C51_towers :
  (forall rf, tower_ok (bigM rf) bigT) /\
  (forall C T (cM : methods C) (tM : methods T) f2c c2t, tower_ok (dM cM tM) (dT f2c c2t)) /\
  (forall rf a b, exists a' b', SameType (bigM rf) bigT a b = Ok (a', b') /\ typeOf (bigM rf) a' = typeOf (bigM rf) b' /\ Qeq (qval a') (qval a) /\ Qeq (qval b') (qval b)).
Proof.
  split; [exact bigT_ok|]. split; [intros; apply dT_ok|]. intros rf a b. destruct (same_big_spec rf a b) as (a' & b' & H1 & H2 & H3 & H4 & _). eauto 6.
Qed.
Print Assumptions C51_towers.
Example C51_example :
  SameType (bigM (fun q => q)) bigT (NB true) (NT (BR (1 # 2))) = Ok (NT (BR 1), NT (BR (1 # 2))) /\
  (exists t, SetTower big_numbers big_import = Ok t) /\
  SetTower [(0, mkNumeric 0 (fun n : num Z => (Some n, false))); (1, mkNumeric 2 (fun n => (Some n, false)))] (fun n => n) = Err.
Proof. split; [vm_compute; reflexivity|]. split; [eexists; reflexivity|]. vm_compute. reflexivity. Qed.

(* ================ C52 ================ *)
Theorem C52_truth :
  forall P (M : methods P) (n : num P) b, ToBool M n = Some b <-> ToIndex M n = Some (if b then 1 else 0).
Proof. intros P M n b. apply ToBool_spec. Qed.
Print Assumptions C52_truth.
(* by value: exact numbers equal to 0 or 1, doubles equal to 0 or 1 *)
Theorem C52_exact :
  forall rf (n : num bignum) b, ToBool (bigM rf) n = Some b <-> Qeq (qval n) (inject_Z (if b then 1 else 0)).
Proof.
  intros rf n b. rewrite ToBool_spec. destruct n as [x|x|p]; cbn [ToIndex pidx bigM].
  - cbn [qval]. rewrite Qeq_inject. split; intros H; [injection H as H; exact H|unfold bool2int at 2; rewrite <- H; reflexivity].
  - cbn [qval]. rewrite Qeq_inject. split; intros H; [injection H as H; exact H|unfold bool2int; rewrite <- H; reflexivity].
  - rewrite big_idx_spec. unfold bool2int. split; [tauto|]. intros H. split; [|exact H]. unfold minint, maxint. destruct b; lia.
Qed.
Print Assumptions C52_exact.
Theorem C52_float :
  forall C T (cM : methods C) (tM : methods T) f b,
  ToBool (dM cM tM) (NT (DF f)) = Some b <-> SFeqb f (f_of_int (if b then 1 else 0)) = true.
Proof. intros C T cM tM f b. rewrite ToBool_spec. cbn [ToIndex pidx dM]. apply f_idx01. Qed.
Print Assumptions C52_float.
(* ~ negates a truth value and rejects everything else *)
Theorem C52_not :
  forall P (M : methods P) (n : num P),
  logicalNot M (VNum n) = Ok (match ToBool M n with Some b => Some (VNum (NB (negb b))) | None => None end).
Proof. intros P M n. unfold logicalNot, asNum. cbn [obind]. destruct (ToBool M n); reflexivity. Qed.
Print Assumptions C52_not.
(* ∧ ∨ ⍲ ⍱ on truth values are the logical operations, in every tower and for
   every mix of number types that unify *)
Theorem C52_logic :
  forall P (M : methods P) (t : tower P) g (a b a' b' : num P) x y,
  SameType M t a b = Ok (a', b') -> (exists nu, ToNumeric M t a' = Some nu /\ Class nu < zlen (Numbers t)) ->
  ToBool M a' = Some x -> ToBool M b' = Some y ->
  arith2 M t (logical M g) (VNum a) (VNum b) =
  Ok (VNum (NB (match g with LAnd => x && y | LOr => x || y | LNand => negb (x && y) | LNor => negb (x || y) end))).
Proof.
  intros P M t g a b a' b' x y HS Hnu Hx Hy. eapply arith2_total; [exact HS| |exact Hnu].
  unfold logical, asNum. cbn [obind]. rewrite Hx, Hy. reflexivity.
Qed.
Print Assumptions C52_logic.
Example C52_example :
  ToBool (bigM (fun q => q)) (NT (BR (2 # 2))) = Some true /\ ToBool (bigM (fun q => q)) (NI 2) = None /\
  arith2 (bigM (fun q => q)) bigT (logical (bigM (fun q => q)) LNand) (VNum (NB true)) (VNum (NT (BR (1 # 1)))) = Ok (VNum (NB false)).
Proof. repeat split; vm_compute; reflexivity. Qed.

(* ================ C75 ================ *)
(* element equality (used by ∊ ⍳ ∪ ~ ≡): with exact numbers two numbers are equal
   exactly if their values are *)
Theorem C75_exact :
  forall rf (a b : num bignum), isEqual (bigM rf) bigT (VNum a) (VNum b) = Ok (if Qeq_dec (qval a) (qval b) then true else false).
Proof.
  intros rf a b.
  assert (G : forall x y, typeOf (bigM rf) x = typeOf (bigM rf) y -> go_eq (bigM rf) (VNum x) (VNum y) = Ok (if Qeq_dec (qval x) (qval y) then true else false)).
  { intros x y Ht. destruct (big_less_eq rf x y Ht) as (l & e & _ & He & _ & Ie).
    assert (E : go_eq (bigM rf) (VNum x) (VNum y) = equals (bigM rf) (VNum x) (Some (VNum y))).
    { destruct x as [x|x|p], y as [y|y|q]; try discriminate Ht; try reflexivity. destruct p, q; try discriminate Ht; reflexivity. }
    rewrite E, He. f_equal. destruct (Qeq_dec (qval x) (qval y)) as [H|H]; [apply Ie; exact H|]. destruct e; [exfalso; apply H; apply Ie; reflexivity|reflexivity]. }
  destruct (same_big_spec rf a b) as (a' & b' & HS & Ht & Ha & Hb & _).
  assert (E : (if Qeq_dec (qval a) (qval b) then true else false) = (if Qeq_dec (qval a') (qval b') then true else false)).
  { destruct (Qeq_dec (qval a) (qval b)) as [H|H], (Qeq_dec (qval a') (qval b')) as [H'|H']; try reflexivity; exfalso; [apply H'; rewrite Ha, Hb; exact H|apply H; rewrite <- Ha, <- Hb; exact H']. }
  unfold isEqual. destruct (ntype_eqb (typeOf (bigM rf) a) (typeOf (bigM rf) b)) eqn:Et.
  - apply ntype_eqb_eq in Et. rewrite (same_type_eq (bigM rf) bigT a b Et) in HS. injection HS as <- <-. rewrite (G a b Et). cbn [obind].
    destruct (Qeq_dec (qval a) (qval b)); [reflexivity|]. rewrite (same_type_eq (bigM rf) bigT a b Et).
    pose proof (G a b Et) as G2. destruct a as [x|x|p], b as [y|y|q]; try discriminate Et; try (rewrite G2; destruct (Qeq_dec _ _); [contradiction|reflexivity]).
    destruct p, q; try discriminate Et; cbn [go_eq ptype bigM] in G2; rewrite Z.eqb_refl in G2; rewrite G2; destruct (Qeq_dec _ _); (contradiction || reflexivity).
  - assert (F : go_eq (bigM rf) (VNum a) (VNum b) = Ok false).
    { destruct a as [x|x|p], b as [y|y|q]; try discriminate Et; try reflexivity. cbn [go_eq]. cbn in Et. destruct p, q; try discriminate Et; reflexivity. }
    rewrite F. cbn [obind]. rewrite HS, E. pose proof (G a' b' Ht) as G2. destruct a' as [x|x|p], b' as [y|y|q]; try discriminate Ht; try exact G2.
    destruct p, q; try discriminate Ht; cbn [go_eq ptype bigM] in G2; rewrite Z.eqb_refl in G2; exact G2.
Qed.
Print Assumptions C75_exact.
(* with the default numbers: reflexive (away from NaN) and symmetric on Bool, Int
   and Float, and an equivalence on each type *)
Theorem C75_default_same_type :
  forall C T (cM : methods C) (tM : methods T) f2c c2t,
  (forall i j, isEqual (dM cM tM) (dT f2c c2t) (VNum (NI i)) (VNum (NI j)) = Ok (i =? j)) /\
  (forall x y, isEqual (dM cM tM) (dT f2c c2t) (VNum (NB x)) (VNum (NB y)) = Ok (Bool.eqb x y)) /\
  (forall x y, isEqual (dM cM tM) (dT f2c c2t) (VNum (NT (DF x))) (VNum (NT (DF y))) = Ok (SFeqb x y)) /\
  (forall t s, isEqual (dM cM tM) (dT f2c c2t) (VOth t s) (VOth t s) = Ok true).
Proof.
  intros. unfold isEqual. cbn [go_eq SameType typeOf ntype_eqb peq ptype dM obind]. split; [|split; [|split]]; intros.
  - destruct (i =? j); reflexivity.
  - destruct (Bool.eqb x y); reflexivity.
  - rewrite !Z.eqb_refl. cbn [obind]. destruct (SFeqb x y) eqn:E; [reflexivity|]. rewrite same_type_eq by reflexivity. cbn [peq dM]. rewrite E. reflexivity.
  - rewrite Z.eqb_refl, String.eqb_refl. reflexivity.
Qed.
Print Assumptions C75_default_same_type.
(* what goes wrong: across types the equality is not transitive, as Ints beyond
   2^53 are compared with Floats after rounding *)
Theorem C75_transitive_refuted :
  forall C T (cM : methods C) (tM : methods T) f2c c2t,
  let eq := isEqual (dM cM tM) (dT f2c c2t) in
  let f := VNum (NT (DF (f_of_int (2 ^ 53)))) in
  eq (VNum (NI (2 ^ 53 + 1))) f = Ok true /\ eq f (VNum (NI (2 ^ 53))) = Ok true /\
  eq (VNum (NI (2 ^ 53 + 1))) (VNum (NI (2 ^ 53))) = Ok false.
Proof. intros. repeat split; vm_compute; reflexivity. Qed.
Print Assumptions C75_transitive_refuted.
Example C75_example :
  isEqual (bigM (fun q => q)) bigT (VNum (NB true)) (VNum (NT (BR (3 # 3)))) = Ok true /\
  isEqual (bigM (fun q => q)) bigT (VNum (NI 1)) (VNum (NT (BR (1 # 3)))) = Ok false.
Proof. split; vm_compute; reflexivity. Qed.

(* ------------------------------------------------------------------ C87 *)
(* -N, |N and ×N for a 64 bit integer N: exact, with the one exception of the smallest *)
Theorem C87_negate :
  forall P (M : methods P) (t : tower P) i, fits i ->
  arith1 M t (sub M) (VNum (NI i)) = Ok (VNum (NI (if i =? minint then minint else - i))).
Proof.
  intros P M t i F. unfold arith1, sub, some_int. cbn [obind]. do 3 f_equal. unfold int_neg. destruct (i =? minint) eqn:E.
  - apply Z.eqb_eq in E. subst i. reflexivity.
  - apply Z.eqb_neq in E. apply wrap_id. unfold fits, minint, maxint in *. lia.
Qed.
Theorem C87_abs :
  forall P (M : methods P) (t : tower P) i, fits i ->
  arith1 M t (abs M) (VNum (NI i)) = Ok (VNum (NI (if i =? minint then minint else Z.abs i))).
Proof.
  intros P M t i F. unfold arith1, abs, some_int. cbn [obind]. do 3 f_equal. unfold int_abs. destruct (i =? minint) eqn:E.
  - apply Z.eqb_eq in E. subst i. reflexivity.
  - apply Z.eqb_neq in E. destruct (i <? 0) eqn:E0; [|lia]. rewrite wrap_id by (unfold fits, minint, maxint in *; lia). lia.
Qed.
Theorem C87_sign :
  forall P (M : methods P) (t : tower P) psign i, arith1 M t (mul psign) (VNum (NI i)) = Ok (VNum (NI (Z.sgn i))).
Proof. intros. unfold arith1, mul, some_int. cbn [obind]. do 3 f_equal. unfold int_sign. destruct (0 <? i) eqn:E; [lia|]. destruct (i <? 0) eqn:E0; lia. Qed.
(* hence N is its sign times its magnitude *)
Theorem C87_sign_times_magnitude :
  forall P (M : methods P) (t : tower P) psign i, fits i ->
  exists s a, arith1 M t (mul psign) (VNum (NI i)) = Ok s /\ arith1 M t (abs M) (VNum (NI i)) = Ok a /\ arith2 M t (mul2 M) s a = Ok (VNum (NI i)).
Proof.
  intros P M t psign i F. do 2 eexists. split; [apply C87_sign|]. split; [apply C87_abs, F|].
  destruct (C47_add_sub_mul P M t (NI (Z.sgn i)) (NI (if i =? minint then minint else Z.abs i)) _ _ eq_refl eq_refl) as (_ & _ & r & E & W).
  rewrite E. do 3 f_equal. apply (wraps_unique _ _ _ W). clear E W.
  destruct (i =? minint) eqn:E; [apply Z.eqb_eq in E; subst i; change (Z.sgn minint * minint) with (2 ^ 63); rewrite <- (wrap_id _ F) at 1; exact (wrap_spec (2 ^ 63))|].
  replace (Z.sgn i * Z.abs i) with i by (pose proof (Z.abs_sgn i); lia). rewrite <- (wrap_id _ F) at 2. apply wrap_spec.
Qed.
Example C87_example : fits (-5) /\ (let M := bigM (fun q => q) in arith1 M bigT (abs M) (VNum (NI (-5))) = Ok (VNum (NI 5)) /\
  arith1 M bigT (abs M) (VNum (NI (- 2 ^ 63))) = Ok (VNum (NI (- 2 ^ 63)))).
Proof. split; [unfold fits, minint, maxint; lia|]. split; reflexivity. Qed.
Print Assumptions C87_negate.
Print Assumptions C87_abs.
Print Assumptions C87_sign.
Print Assumptions C87_sign_times_magnitude.
