(* P_DecodeNum.v -- the default tower computes exactly with integers up to 2^52,
   whether they are Bool, Int or Float. *)
From Coq Require Import ZArith Reals Lia Lra Psatz.
From Coq Require Import Floats.SpecFloat.
From Flocq Require Import Core.Core IEEE754.BinarySingleNaN.
From Verif Require Import Base M_Number S_Number P_Float M_Decode S_Decode M_DecodeNum.
Open Scope Z_scope.

Lemma SFeqb_inv x y : SFeqb x y = true -> x = y \/ ((exists s, x = S754_zero s) /\ exists s, y = S754_zero s).
Proof.
  unfold SFeqb. destruct x as [s|s| |s m e], y as [s'|s'| |s' m' e']; cbn [SFcompare]; intros H; try discriminate; try (destruct s; discriminate); try (destruct s'; discriminate).
  - right; eauto.
  - left. destruct s, s'; try discriminate; reflexivity.
  - left. destruct s, s'; try discriminate; destruct (Z.compare_spec e e'); try discriminate; try (subst; destruct (Pos.compare_cont Eq m m') eqn:E; try discriminate; apply Pos.compare_eq in E; subst; reflexivity).
Qed.
Lemma repr_zero f : repr f 0%R -> exists s, f = S754_zero s.
Proof.
  intros (b & <- & F & E). destruct b as [s|s| |s m e Hb]; try discriminate; [cbn; eauto|]. exfalso. cbn [B2R] in E. apply eq_0_F2R in E. destruct s; discriminate.
Qed.
Lemma repr_SFeqb z f : Z.abs z <= 2 ^ 53 -> (SFeqb (f_of_int z) f = true <-> repr f (IZR z)).
Proof.
  intros Hz. pose proof (of_int_repr z Hz) as Rz. split.
  - intros H. apply SFeqb_inv in H. destruct H as [<-|((s & E1) & s' & ->)]; [exact Rz|]. rewrite E1 in Rz. destruct Rz as (b & Eb & Fb & Rb). destruct b; try discriminate. cbn in Rb. exists (B754_zero s'). split; [reflexivity|]. split; [reflexivity|exact Rb].
  - intros Rf. destruct (Z.eq_dec z 0) as [->|Hn].
    + destruct (repr_zero f Rf) as (s & ->). reflexivity.
    + rewrite (repr_int_eq f z Rf Hn Hz). destruct Rz as (b & Eb & Fb & _). rewrite <- Eb. destruct b as [s|s| |s m e Hb]; try discriminate; [reflexivity|]. cbn [B2SF]. unfold SFeqb, SFcompare. destruct s; rewrite Z.compare_refl; change (Pos.compare_cont Eq m m) with (Pos.compare m m); rewrite Pos.compare_refl; reflexivity.
Qed.
(* an exact quotient *)
Lemma div_repr_exact a b q l : repr a (IZR (q * l)) -> repr b (IZR l) -> (Z.abs q <= 2 ^ 53)%Z -> (l <> 0)%Z -> repr (f_div a b) (IZR q).
Proof.
  intros (ba & <- & Fa & Ra) (bb & <- & Fb & Rb) Hq L0. exists (Bdiv mode_NE ba bb). split; [symmetry; apply div_sf|].
  pose proof (Bdiv_correct 53 1024 _ _ mode_NE ba bb) as C. rewrite Ra, Rb in C. specialize (C (IZR_neq _ _ L0)).
  replace (IZR (q * l) / IZR l)%R with (IZR q) in C by (rewrite mult_IZR; field; apply IZR_neq; exact L0).
  change (round_mode mode_NE) with ZnearestE in C. rewrite (rnd_int _ Hq) in C. rewrite small_bpow in C by (apply abs_IZR_le; lia).
  destruct C as (C1 & C2 & _). rewrite Fa in C2. split; assumption.
Qed.
Lemma repr_fin f x : repr f x -> f <> S754_nan /\ forall s, f <> S754_infinity s.
Proof. intros (b & <- & Fb & _). destruct b; try discriminate; split; try intros; discriminate. Qed.
Lemma f_exc_repr {C T} f x : repr f x -> @f_exc C T f = VNum (NT (DF f)).
Proof. intros H. apply repr_fin in H. destruct H as (H1 & H2). destruct f as [s|s| |s m e]; try reflexivity; [exfalso; apply (H2 s); reflexivity|congruence]. Qed.

Section D.
  Context {C T : Type} (cM : methods C) (tM : methods T) (f2c : spec_float -> C) (c2t : C -> option T).
  Local Notation M := (dM cM tM).
  Local Notation Tw := (dT f2c c2t).
  Local Notation value := (sval (dnum C T)).
  (* v is a number that is equal to the integer z *)
  Definition dden (v : value) (z : Z) : Prop :=
    match v with
    | VNum (NB b) => z = bool2int b
    | VNum (NI i) => z = i
    | VNum (NT (DF f)) => SFeqb (f_of_int z) f = true
    | _ => False
    end.
  Definition intlike (v : value) (z : Z) : Prop := v = VNum (NI z) \/ exists b, v = VNum (NB b) /\ z = bool2int b.
  (* the arguments that arith2 hands to the methods of Float *)
  Definition flt (v : value) (f : spec_float) : Prop :=
    (exists z, intlike v z /\ f = f_of_int z) \/ v = VNum (NT (DF f)).
  Local Notation fn2 := (value -> option value -> outcome (option value)).
  Local Ltac go := cbn; change (Pos.to_nat 3) with 3%nat; change (Pos.to_nat 4) with 4%nat; change (Pos.to_nat 5) with 5%nat; cbn -[bool2int].
  (* both integers *)
  Lemma up_int (fn : fn2) x y i j v : intlike x i -> intlike y j ->
    (forall b c, fn (VNum (NB b)) (Some (VNum (NB c))) = Ok None) ->
    fn (VNum (NI i)) (Some (VNum (NI j))) = Ok (Some v) -> arith2 M Tw fn x y = Ok v.
  Proof.
    intros [->|(b & -> & ->)] [->|(c & -> & ->)] Hb H; unfold arith2; cbn [vtype_eqb typeOf ntype_eqb obind].
    - rewrite H. reflexivity.
    - go. rewrite H. reflexivity.
    - go. rewrite H. reflexivity.
    - rewrite Hb. cbn [obind SameType typeOf ntype_eqb]. go. rewrite Hb. go. rewrite H. reflexivity.
  Qed.
  (* both integers, the method of Int gives up *)
  Lemma up_float (fn : fn2) x y i j v : intlike x i -> intlike y j -> (forall b c, ~ (x = VNum (NB b) /\ y = VNum (NB c))) ->
    fn (VNum (NI i)) (Some (VNum (NI j))) = Ok None -> fn (VNum (NT (DF (f_of_int i)))) (Some (VNum (NT (DF (f_of_int j))))) = Ok (Some v) -> arith2 M Tw fn x y = Ok v.
  Proof.
    intros [->|(b & -> & ->)] [->|(c & -> & ->)] Hb H1 H2; unfold arith2; cbn [vtype_eqb typeOf ntype_eqb obind].
    - rewrite H1. go. rewrite H1. go. rewrite H2. reflexivity.
    - go. rewrite H1. go. rewrite H2. reflexivity.
    - go. rewrite H1. go. rewrite H2. reflexivity.
    - exfalso. eapply Hb; eauto.
  Qed.
  (* a Float is involved *)
  Lemma up_mixed (fn : fn2) x y f g v : flt x f -> flt y g -> x = VNum (NT (DF f)) \/ y = VNum (NT (DF g)) ->
    fn (VNum (NT (DF f))) (Some (VNum (NT (DF g)))) = Ok (Some v) -> arith2 M Tw fn x y = Ok v.
  Proof.
    intros [(z & Hx & ->)|Hx] [(w & Hy & ->)|Hy] Ho H.
    - exfalso. destruct Hx as [->|(b & -> & _)], Hy as [->|(c & -> & _)], Ho; discriminate.
    - subst y. destruct Hx as [->|(b & -> & ->)]; unfold arith2; go; rewrite H; reflexivity.
    - subst x. destruct Hy as [->|(b & -> & ->)]; unfold arith2; go; rewrite H; reflexivity.
    - subst. unfold arith2. go. rewrite H. reflexivity.
  Qed.
  Lemma dden_cases v z : dden v z -> intlike v z \/ exists f, v = VNum (NT (DF f)) /\ SFeqb (f_of_int z) f = true.
  Proof. destruct v as [[b|i|[f|c|d]]|]; cbn; intros H; try tauto; subst; [left; right; eauto|left; left; reflexivity|right; eauto]. Qed.
  Lemma dden_flt v z : dden v z -> Z.abs z <= 2 ^ 53 -> exists f, flt v f /\ repr f (IZR z).
  Proof.
    intros H Hz. apply dden_cases in H. destruct H as [H|(f & -> & H)].
    - exists (f_of_int z). split; [left; eauto|apply of_int_repr; exact Hz].
    - exists f. split; [right; reflexivity|apply repr_SFeqb; assumption].
  Qed.
  Lemma dden_float f z : Z.abs z <= 2 ^ 53 -> repr f (IZR z) -> dden (VNum (NT (DF f))) z.
  Proof. intros Hz H. cbn. apply repr_SFeqb; assumption. Qed.
  Lemma dden_two x y i j : dden x i -> dden y j -> Z.abs i <= 2 ^ 53 -> Z.abs j <= 2 ^ 53 ->
    (intlike x i /\ intlike y j) \/ (exists f g, flt x f /\ flt y g /\ (x = VNum (NT (DF f)) \/ y = VNum (NT (DF g))) /\ repr f (IZR i) /\ repr g (IZR j)).
  Proof.
    intros Hx Hy Bi Bj. destruct (dden_cases _ _ Hx) as [Ix|(f & -> & Hf)]; [destruct (dden_cases _ _ Hy) as [Iy|(g & -> & Hg)]; [left; auto|]|].
    - right. exists (f_of_int i), g. split; [left; eauto|]. split; [right; reflexivity|]. split; [right; reflexivity|]. split; [apply of_int_repr; exact Bi|apply repr_SFeqb; assumption].
    - right. destruct (dden_flt _ _ Hy Bj) as (g & Fg & Rg). exists f, g. split; [right; reflexivity|]. split; [exact Fg|]. split; [left; reflexivity|]. split; [apply repr_SFeqb; assumption|exact Rg].
  Qed.
  Lemma wrap_small z : Z.abs z <= 2 ^ 53 -> wrap z = z.
  Proof. intros H. unfold wrap. rewrite Z.mod_small by lia. lia. Qed.
  Lemma simple_op (fn : fn2) (fi : Z -> Z -> Z) (ff : spec_float -> spec_float -> spec_float) :
    (forall b c, fn (VNum (NB b)) (Some (VNum (NB c))) = Ok None) ->
    (forall i j, Z.abs (fi i j) <= 2 ^ 53 -> fn (VNum (NI i)) (Some (VNum (NI j))) = Ok (Some (VNum (NI (fi i j))))) ->
    (forall f g, fn (VNum (NT (DF f))) (Some (VNum (NT (DF g)))) = Ok (Some (VNum (NT (DF (ff f g)))))) ->
    (forall f g i j, repr f (IZR i) -> repr g (IZR j) -> Z.abs (fi i j) <= 2 ^ 53 -> repr (ff f g) (IZR (fi i j))) ->
    forall x y i j, dden x i -> dden y j -> Z.abs i <= 2 ^ 52 -> Z.abs j <= 2 ^ 52 -> Z.abs (fi i j) <= 2 ^ 52 ->
    exists v, arith2 M Tw fn x y = Ok v /\ dden v (fi i j).
  Proof.
    intros Hb Hi Hf Hr x y i j Dx Dy Bi Bj B. destruct (dden_two x y i j Dx Dy) as [(Ix & Iy)|(f & g & Fx & Fy & Ho & Rf & Rg)]; [lia|lia| |].
    - exists (VNum (NI (fi i j))). split; [|reflexivity]. apply (up_int fn x y i j); auto. apply Hi. lia.
    - exists (VNum (NT (DF (ff f g)))). split; [eapply up_mixed; eauto|]. apply dden_float; [lia|]. apply Hr; auto. lia.
  Qed.
  Lemma dquot_small i j : 0 < j -> Z.abs (i / j) <= Z.abs i.
  Proof. intros Hj. pose proof (Z.div_mod i j ltac:(lia)). pose proof (Z.mod_pos_bound i j Hj). destruct (Z_le_gt_dec 0 i); nia. Qed.
  Lemma int_div2_spec i j : 0 < j -> Z.abs i <= 2 ^ 53 -> int_div2 i j = if i mod j =? 0 then Some (i / j) else None.
  Proof.
    intros Hj Hi. unfold int_div2. replace (j =? 0) with false by lia. cbv zeta.
    assert (Q : Z.abs (Z.quot i j) <= Z.abs i) by (rewrite <- Z.quot_abs by lia; rewrite Z.quot_div_nonneg by lia; apply Z.div_le_upper_bound; nia).
    rewrite (wrap_small (Z.quot i j)) by lia.
    assert (Q2 : Z.abs (Z.quot i j * j) <= Z.abs i).
    { rewrite Z.abs_mul, <- Z.quot_abs by lia. rewrite Z.quot_div_nonneg by lia. rewrite Z.mul_comm. apply Z.mul_div_le. lia. }
    rewrite wrap_small by lia. pose proof (Z.div_mod i j ltac:(lia)) as D. pose proof (Z.mod_pos_bound i j Hj) as Dm.
    destruct (i mod j =? 0) eqn:E.
    - assert (i = i / j * j) by lia. assert (Hq : Z.quot i j = i / j) by (rewrite H at 1; apply Z.quot_mul; lia). rewrite Hq. replace (i / j * j =? i) with true by lia. reflexivity.
    - replace (Z.quot i j * j =? i) with false; [reflexivity|]. symmetry. apply Z.eqb_neq. intros X. rewrite <- X in E. rewrite Z.mod_mul in E by lia. discriminate.
  Qed.
  Lemma bool2int_div b c : 0 < bool2int c -> bool2int b mod bool2int c = 0.
  Proof. destruct c; cbn; [destruct b; reflexivity|lia]. Qed.
  (* division *)
  Lemma div_op x y i j : dden x i -> dden y j -> 0 < j -> Z.abs i <= 2 ^ 52 -> Z.abs j <= 2 ^ 52 ->
    exists w, arith2 M Tw (div2 M) x y = Ok w /\
      ((i mod j = 0 /\ dden w (i / j)) \/ (i mod j <> 0 /\ exists f r, w = VNum (NT (DF f)) /\ repr f r /\ Zfloor r = i / j)).
  Proof.
    intros Dx Dy Hj Bi Bj. pose proof (dquot_small i j Hj) as Hq.
    assert (HF : forall f g, repr f (IZR i) -> repr g (IZR j) ->
       exists w, div2 M (VNum (NT (DF f))) (Some (VNum (NT (DF g)))) = Ok (Some w) /\
       ((i mod j = 0 /\ dden w (i / j)) \/ (i mod j <> 0 /\ exists f r, w = VNum (NT (DF f)) /\ repr f r /\ Zfloor r = i / j))).
    { intros f g Rf Rg. destruct (Z.eq_dec (i mod j) 0) as [E|E].
      - assert (R : repr (f_div f g) (IZR (i / j))) by (apply (div_repr_exact f g (i / j) j); [replace (i / j * j) with i by (pose proof (Z.div_mod i j ltac:(lia)); lia); exact Rf|exact Rg|lia|lia]).
        exists (VNum (NT (DF (f_div f g)))). split; [cbn; rewrite (f_exc_repr _ _ R); reflexivity|]. left. split; [exact E|]. apply dden_float; [lia|exact R].
      - destruct (div_repr f g i j Rf Rg) as (r & R & Hr); [lia|lia|lia|exact E|]. exists (VNum (NT (DF (f_div f g)))). split; [cbn; rewrite (f_exc_repr _ _ R); reflexivity|]. right. split; [exact E|eauto]. }
    destruct (dden_two x y i j Dx Dy) as [(Ix & Iy)|(f & g & Fx & Fy & Ho & Rf & Rg)]; [lia|lia| |].
    - assert (HD : div2 M (VNum (NI i)) (Some (VNum (NI j))) = Ok (if i mod j =? 0 then Some (VNum (NI (i / j))) else None)) by (cbn; rewrite int_div2_spec by lia; destruct (i mod j =? 0); reflexivity).
      destruct (Z.eqb_spec (i mod j) 0) as [E|E].
      + exists (VNum (NI (i / j))). split; [|left; split; [exact E|reflexivity]]. apply (up_int (div2 M) x y i j); auto.
      + destruct (HF (f_of_int i) (f_of_int j)) as (w & Hw & HH); [apply of_int_repr; lia|apply of_int_repr; lia|]. exists w. split; [|exact HH].
        apply (up_float (div2 M) x y i j w); auto. intros b c (-> & ->). destruct Ix as [X|(b' & X & ->)]; [discriminate|]. destruct Iy as [Y|(c' & Y & ->)]; [discriminate|]. apply E. apply bool2int_div. exact Hj.
    - destruct (HF f g Rf Rg) as (w & Hw & HH). exists w. split; [eapply up_mixed; eauto|exact HH].
  Qed.
  (* the residue on floats *)
  Lemma f_idx_zero s : f_idx (S754_zero s) = Some 0.
  Proof. destruct s; reflexivity. Qed.
  Lemma IsZero_float f j : repr f (IZR j) -> Z.abs j <= 2 ^ 52 -> IsZero M (NT (DF f)) = (j =? 0).
  Proof.
    intros Rf Bj. destruct (Z.eqb_spec j 0) as [->|Hn].
    - destruct (repr_zero f Rf) as (s & ->). destruct s; reflexivity.
    - unfold IsZero. destruct (ToBool M (NT (DF f))) as [[]|] eqn:E; try reflexivity. exfalso. unfold ToBool in E. cbn [ToIndex dM pidx] in E. unfold f_idx in E.
      destruct (SFeqb (f_of_int (f_to_int f)) f) eqn:E2; [|discriminate]. destruct ((f_to_int f <? 0) || (1 <? f_to_int f)); [discriminate|]. destruct (Z.eqb_spec (f_to_int f) 0) as [E0|]; [|discriminate].
      rewrite E0 in E2. apply repr_SFeqb in E2; [|lia]. destruct E2 as (b & Eb & Fb & Rb), Rf as (b' & Eb' & Fb' & Rb'). rewrite <- Eb' in Eb. apply B2SF_inj in Eb. subst b'. rewrite Rb in Rb'. apply eq_IZR in Rb'. lia.
  Qed.
  Lemma abs2_float f g j i : repr f (IZR j) -> repr g (IZR i) -> 0 <= j <= 2 ^ 52 -> Z.abs i <= 2 ^ 52 ->
    exists v, abs2 M Tw (VNum (NT (DF f))) (Some (VNum (NT (DF g)))) = Ok (Some v) /\ dden v (i mod j).
  Proof.
    intros Rf Rg Bj Bi.
    unfold abs2. cbn [asNum obind]. rewrite (IsZero_float f j Rf ltac:(lia)).
    set (k := if j =? 0 then 1 else j). set (z := f_of_int (bool2int (j =? 0))).
    assert (Hz : repr z (IZR (bool2int (j =? 0)))) by (apply of_int_repr; destruct (j =? 0); cbn; lia).
    assert (Hk : repr (f_add f z) (IZR k)).
    { replace k with (j + bool2int (j =? 0)) by (unfold k; destruct (Z.eqb_spec j 0) as [E|E]; cbn; lia). apply add_repr; auto. destruct (j =? 0); cbn; lia. }
    assert (ES : SameType M Tw (NB (j =? 0)) (NT (DF f)) = Ok (NT (DF z), NT (DF f))) by reflexivity.
    unfold sameOr at 1. rewrite ES. unfold oksome at 1. cbn [obind]. 
    assert (EA : add2 M (VNum (NT (DF f))) (Some (VNum (NT (DF z)))) = Ok (Some (VNum (NT (DF (f_add f z)))))) by reflexivity.
    rewrite EA. cbn [obind].
    assert (Hk0 : 0 < k <= 2 ^ 52) by (unfold k; destruct (Z.eqb_spec j 0); lia).
    destruct (div_op (VNum (NT (DF g))) (VNum (NT (DF (f_add f z)))) i k) as (w & Ew & Hw); [apply dden_float; [lia|exact Rg]|apply dden_float; [lia|exact Hk]|lia|lia|lia|].
    assert (ED : div2 M (VNum (NT (DF g))) (Some (VNum (NT (DF (f_add f z))))) = Ok (Some w)).
    { unfold arith2 in Ew. cbn [vtype_eqb typeOf ntype_eqb dM ptype] in Ew. change (tDF =? tDF) with true in Ew. cbv iota in Ew. cbn in Ew |- *. inversion Ew; reflexivity. }
    unfold oksome at 1. rewrite ED. cbn [obind].
    assert (Hfl : exists h, w = VNum (NT (DF h)) /\ repr (f_floor h) (IZR (i / k))).
    { pose proof (dquot_small i k ltac:(lia)) as Q. cbn in ED. inversion ED as [Ew']. destruct Hw as [(Hm & Dw)|(Hm & h & r & Eh & Rh & Hr)].
      - rewrite <- Ew' in Dw. unfold dden, f_exc in Dw. destruct (f_div g (f_add f z)) as [s|s| |s m e] eqn:Eq; try (destruct s); try contradiction; cbn [f_exc]; eexists; (split; [reflexivity|]).
        all: rewrite <- (Zfloor_IZR (i / k)) at 1; apply floor_repr; [apply repr_SFeqb; [lia|exact Dw]|rewrite Zfloor_IZR; lia].
      - exists h. split; [rewrite Ew'; exact Eh|]. rewrite <- Hr. apply floor_repr; [exact Rh|]. rewrite Hr. lia. }
    destruct Hfl as (h & -> & Rh). unfold oksome at 1. cbn [floor dM pfloor obind]. cbn [asNum obind vF].
    assert (ES2 : SameType M Tw (NT (DF f)) (NT (DF (f_floor h))) = Ok (NT (DF f), NT (DF (f_floor h)))) by reflexivity.
    unfold sameOr. rewrite ES2. unfold oksome. cbn.
    eexists. split; [reflexivity|]. unfold vF.
    assert (Hp : j * (i / k) = i - i mod j \/ (j = 0 /\ True)) by (unfold k in *; destruct (Z.eqb_spec j 0); [right; auto|left; pose proof (Z.div_mod i j ltac:(lia)); lia]).
    assert (Hm : i mod j = i - j * (i / k)) by (destruct Hp as [Hp|(-> & _)]; [lia|rewrite Zmod_0_r; lia]).
    assert (Hmb : Z.abs (i mod j) <= 2 ^ 52) by (destruct (Z.eq_dec j 0) as [->|]; [rewrite Zmod_0_r; lia|pose proof (Z.mod_pos_bound i j ltac:(lia)); lia]).
    apply dden_float; [lia|]. rewrite Hm. apply sub_repr; [exact Rg| |lia]. apply mul_repr; [exact Rf|exact Rh|lia].
  Qed.
  Lemma abs2_ints j i : 0 <= j <= 2 ^ 52 -> Z.abs i <= 2 ^ 52 ->
    abs2 M Tw (VNum (NI j)) (Some (VNum (NI i))) = if (j =? 0) || (i mod j =? 0) then Ok (Some (VNum (NI (i mod j)))) else Ok None.
  Proof.
    intros Bj Bi. unfold abs2. cbn [asNum obind]. assert (EZ : IsZero M (NI j) = (j =? 0)).
    { unfold IsZero, ToBool. cbn [ToIndex]. destruct ((j <? 0) || (1 <? j)) eqn:E; [symmetry; apply Z.eqb_neq; lia|]. destruct (j =? 0) eqn:E0; reflexivity. }
    rewrite EZ. set (k := j + bool2int (j =? 0)). assert (Hk0 : 0 < k <= 2 ^ 52) by (unfold k; destruct (Z.eqb_spec j 0); cbn; lia).
    assert (ES : SameType M Tw (NB (j =? 0)) (NI j) = Ok (NI (bool2int (j =? 0)), NI j)) by reflexivity.
    unfold sameOr at 1. rewrite ES. unfold oksome at 1. cbn [add2 with_int obind]. unfold int_add2. rewrite wrap_small by (fold k; lia). fold k.
    unfold oksome at 1. cbn [div2 with_int]. rewrite int_div2_spec by lia. pose proof (dquot_small i k ltac:(lia)) as Q.
    assert (Em : (j =? 0) || (i mod j =? 0) = (i mod k =? 0)) by (unfold k; destruct (Z.eqb_spec j 0) as [->|E]; cbn [bool2int orb]; [change (0 + 1) with 1; rewrite Z.mod_1_r; reflexivity|rewrite Z.add_0_r; reflexivity]).
    rewrite Em. destruct (Z.eqb_spec (i mod k) 0) as [E|E]; [|reflexivity]. cbn. unfold oksome, sameOr. cbn. unfold int_sub2, int_mul2.
    assert (Hp : i - j * (i / k) = i mod j).
    { unfold k. destruct (Z.eqb_spec j 0) as [->|En]; cbn [bool2int]; [rewrite Zmod_0_r; lia|rewrite Z.add_0_r; pose proof (Z.div_mod i j ltac:(lia)); lia]. }
    assert (Hmb : Z.abs (i mod j) <= 2 ^ 52) by (destruct (Z.eq_dec j 0) as [->|]; [rewrite Zmod_0_r; lia|pose proof (Z.mod_pos_bound i j ltac:(lia)); lia]).
    rewrite (wrap_small (j * (i / k))) by lia. rewrite wrap_small by lia. rewrite Hp. reflexivity.
  Qed.
  Lemma abs2_bools b c : abs2 M Tw (VNum (NB b)) (Some (VNum (NB c))) = Ok None.
  Proof. reflexivity. Qed.
  Lemma mod_op x y j i : dden x j -> dden y i -> 0 <= j -> Z.abs i <= 2 ^ 52 -> Z.abs j <= 2 ^ 52 ->
    exists v, arith2 M Tw (abs2 M Tw) x y = Ok v /\ dden v (i mod j).
  Proof.
    intros Dx Dy Hj Bi Bj. destruct (dden_two x y j i Dx Dy) as [(Ix & Iy)|(f & g & Fx & Fy & Ho & Rf & Rg)]; [lia|lia| |].
    - pose proof (abs2_ints j i ltac:(lia) Bi) as HA. destruct ((j =? 0) || (i mod j =? 0)) eqn:E.
      + exists (VNum (NI (i mod j))). split; [|reflexivity]. apply (up_int _ x y j i); auto using abs2_bools.
      + destruct (abs2_float (f_of_int j) (f_of_int i) j i) as (v & Hv & Dv); [apply of_int_repr; lia|apply of_int_repr; lia|lia|lia|].
        exists v. split; [|exact Dv]. apply (up_float _ x y j i v); auto. intros b c (-> & ->). destruct Ix as [X|(b' & X & ->)]; [discriminate|]. destruct Iy as [Y|(c' & Y & ->)]; [discriminate|].
        destruct b'; cbn in E; [destruct c'; cbn in E; discriminate|discriminate].
    - destruct (abs2_float f g j i Rf Rg) as (v & Hv & Dv); [lia|lia|]. exists v. split; [eapply up_mixed; eauto|exact Dv].
  Qed.
  Lemma floor_int z : arith1 M Tw (floor M) (VNum (NI z)) = Ok (VNum (NI z)).
  Proof. reflexivity. Qed.

  Theorem default_exact : exact_arith (tower_ops M Tw) dden (2 ^ 52).
  Proof.
    split; cbn [tower_ops a_add a_sub a_mul a_div a_mod a_floor a_zerop a_int].
    - intros z Hz. reflexivity.
    - apply (simple_op (add2 M) Z.add f_add); try reflexivity; [|apply add_repr]. intros i j H. cbn. unfold int_add2. rewrite wrap_small by lia. reflexivity.
    - apply (simple_op (sub2 M) Z.sub f_sub); try reflexivity; [|apply sub_repr]. intros i j H. cbn. unfold int_sub2. rewrite wrap_small by lia. reflexivity.
    - apply (simple_op (mul2 M) Z.mul f_mul); try reflexivity; [|apply mul_repr]. intros i j H. cbn. unfold int_mul2. rewrite wrap_small by lia. reflexivity.
    - intros x y q j Dx Dy Hj Bi Bj. destruct (div_op x y (q * j) j Dx Dy Hj Bi Bj) as (w & Ew & [(_ & Dw)|(Hm & _)]).
      + exists w. split; [exact Ew|]. rewrite Z.div_mul in Dw by lia. exact Dw.
      + exfalso. apply Hm. apply Z.mod_mul. lia.
    - intros x y i j Dx Dy Hj Bi Bj. destruct (div_op x y i j Dx Dy Hj Bi Bj) as (w & Ew & Hw). pose proof (dquot_small i j Hj) as Q. exists w. destruct Hw as [(_ & Dw)|(Hm & f & r & -> & Rf & Hr)].
      + destruct w as [[b|z|[f|c|d]]|]; cbn in Dw; try contradiction.
        * exists (VNum (NI (bool2int b))). split; [exact Ew|]. split; [reflexivity|exact Dw].
        * exists (VNum (NI z)). split; [exact Ew|]. split; [reflexivity|exact Dw].
        * exists (VNum (NT (DF (f_floor f)))). split; [exact Ew|]. split; [reflexivity|]. apply dden_float; [lia|]. rewrite <- (Zfloor_IZR (i / j)). apply floor_repr; [apply repr_SFeqb; [lia|exact Dw]|rewrite Zfloor_IZR; lia].
      + exists (VNum (NT (DF (f_floor f)))). split; [exact Ew|]. split; [reflexivity|]. apply dden_float; [lia|]. rewrite <- Hr. apply floor_repr; [exact Rf|]. rewrite Hr. lia.
    - intros. apply mod_op; assumption.
    - intros x i Dx Bi. destruct (dden_cases x i Dx) as [Ix|(f & -> & Hf)].
      + destruct Ix as [->|(b & -> & ->)]; [unfold arith2; reflexivity|destruct b; reflexivity].
      + assert (HE : arith2 M Tw (compare M CEq) (VNum (NT (DF f))) (VNum (NI 0)) = Ok (VNum (NB (SFeqb f (f_of_int 0))))) by reflexivity.
        rewrite HE. cbn [obind]. f_equal. apply repr_SFeqb in Hf; [|lia]. destruct (Z.eqb_spec i 0) as [->|Hn].
        * destruct (repr_zero f Hf) as (s & ->). destruct s; reflexivity.
        * destruct (SFeqb f (f_of_int 0)) eqn:E; [|reflexivity]. exfalso. apply SFeqb_inv in E. change (f_of_int 0) with (S754_zero false) in E.
          assert (exists s, f = S754_zero s) as (s & ->) by (destruct E as [->|(E & _)]; [eauto|exact E]). destruct Hf as (b & Eb & Fb & Rb). destruct b; try discriminate. cbn in Rb. apply (eq_IZR 0) in Rb. lia.
  Qed.
End D.
