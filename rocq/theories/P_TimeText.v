(* P_TimeText.v -- lemmas for the texts of times and durations. *)
From Verif Require Import Base M_Scan M_Format P_Format P_Format2 P_Format3 M_Time S_Time P_Time M_TimeText S_TimeText.
Open Scope Z_scope.
Ltac Zify.zify_post_hook ::= Z.to_euclidean_division_equations.

Notation dig := (fun c : Z => 48 <= c <= 57).
Notation dstep := (fun x c : Z => 10 * x + (c - 48)).
Lemma isdigit_true c : 48 <= c <= 57 -> isdigit c = true. Proof. unfold isdigit. lia. Qed.
Lemma isdigit_false c : ~ (48 <= c <= 57) -> isdigit c = false. Proof. unfold isdigit. lia. Qed.
Lemma isdigit_iff c : isdigit c = true <-> 48 <= c <= 57. Proof. unfold isdigit. lia. Qed.

Lemma dfold_ge ds : forall x, 0 <= x -> Forall dig ds -> x <= fold_left dstep ds x.
Proof.
  induction ds as [|c r IH]; intros x Hx H; [cbn; lia|]. inversion H as [|? ? Hc Hr]; subst. cbn [fold_left].
  specialize (IH (10 * x + (c - 48)) ltac:(lia) Hr). lia.
Qed.
Definition stops (s : list Z) : Prop := match s with [] => True | c :: _ => ~ (48 <= c <= 57) end.
Lemma leadingInt_digits ds : forall x rest, 0 <= x -> Forall dig ds -> stops rest -> fold_left dstep ds x <= maxInt ->
  leadingInt x (ds ++ rest) = Some (fold_left dstep ds x, rest).
Proof.
  induction ds as [|c r IH]; intros x rest Hx H Hs Hm.
  - cbn [app fold_left]. destruct rest as [|c r]; [reflexivity|]. cbn [leadingInt]. rewrite (isdigit_false c Hs). reflexivity.
  - inversion H as [|? ? Hc Hr]; subst. cbn [app leadingInt fold_left]. rewrite (isdigit_true c Hc).
    replace (x * 10 + (c - 48)) with (10 * x + (c - 48)) by lia. cbn [fold_left] in Hm.
    pose proof (dfold_ge r (10 * x + (c - 48)) ltac:(lia) Hr). destruct (Z.ltb_spec maxInt (10 * x + (c - 48))); [lia|]. apply IH; auto; lia.
Qed.
Lemma leadingFraction_digits ds : forall x sc rest, 0 <= x -> Forall dig ds -> stops rest -> fold_left dstep ds x <= maxInt ->
  leadingFraction false x sc (ds ++ rest) = (fold_left dstep ds x, sc * 10 ^ zlen ds, rest).
Proof.
  induction ds as [|c r IH]; intros x sc rest Hx H Hs Hm.
  - cbn [app fold_left]. rewrite zlen_nil, Z.pow_0_r, Z.mul_1_r. destruct rest as [|c r]; [reflexivity|]. cbn [leadingFraction]. rewrite (isdigit_false c Hs). reflexivity.
  - inversion H as [|? ? Hc Hr]; subst. cbn [app leadingFraction fold_left]. rewrite (isdigit_true c Hc).
    replace (x * 10 + (c - 48)) with (10 * x + (c - 48)) by lia. cbn [fold_left] in Hm.
    pose proof (dfold_ge r (10 * x + (c - 48)) ltac:(lia) Hr). cbn [orb]. destruct (Z.ltb_spec maxInt (10 * x + (c - 48))); [lia|].
    rewrite IH by (auto; lia). rewrite zlen_cons, Z.pow_add_r by (try lia; apply zlen_nonneg). rewrite Z.pow_1_r. f_equal. f_equal. ring.
Qed.
Lemma dv_fold ds : forall x v, Forall dig ds -> digits_value 10 x ds = Some v -> fold_left dstep ds x = v.
Proof.
  induction ds as [|c r IH]; intros x v H E; [cbn in E; injection E as <-; reflexivity|]. inversion H as [|? ? Hc Hr]; subst. cbn [digits_value] in E.
  assert (DV : digit_value 10 c = Some (c - 48)).
  { unfold digit_value. assert (Q : M_Scan.digit c = true) by (unfold M_Scan.digit, M_Scan.rune_range; lia). rewrite Q. destruct (Z.ltb_spec (c - 48) 10); [reflexivity|lia]. }
  rewrite DV in E.
  cbn [fold_left]. replace (10 * x + (c - 48)) with (x * 10 + (c - 48)) by lia. apply IH; assumption.
Qed.
Lemma decimal_value n : 0 <= n < 10 ^ 20 -> value (decimal n) = n.
Proof.
  intros H. unfold value. apply dv_fold; [apply decimal_digits|]. unfold decimal. rewrite digits_of_value; [reflexivity|change (Z.of_nat 20) with 20; lia|lia].
Qed.

(* ---- fmtFrac ---- *)
Lemma frac_print p : forall v acc, 0 <= v -> exists D, fmtFrac p true v acc = (c_point :: D ++ acc, v / 10 ^ Z.of_nat p) /\ zlen D = Z.of_nat p /\ Forall dig D /\ value D = v mod 10 ^ Z.of_nat p.
Proof.
  induction p as [|p IH]; intros v acc Hv.
  - exists []. cbn [fmtFrac app]. change (10 ^ Z.of_nat 0) with 1. rewrite Z.div_1_r, Z.mod_1_r. auto.
  - cbn [fmtFrac orb]. destruct (IH (v / 10) ((48 + v mod 10) :: acc) ltac:(lia)) as (D & E & L & F & V). exists (D ++ [48 + v mod 10]).
    pose proof (Z.mod_pos_bound v 10 ltac:(lia)). rewrite E. rewrite Nat2Z.inj_succ, Z.pow_succ_r by lia. pose proof (Z.pow_pos_nonneg 10 (Z.of_nat p) ltac:(lia) ltac:(lia)) as P.
    set (q := 10 ^ Z.of_nat p) in *. split; [|split; [|split]].
    + rewrite <- app_assoc. cbn [app]. rewrite Z.div_div by lia. reflexivity.
    + rewrite zlen_app, L, zlen_cons, zlen_nil. lia.
    + apply Forall_app. split; [exact F|]. constructor; [lia|constructor].
    + unfold value in *. rewrite fold_left_app. cbn [fold_left]. rewrite V. rewrite (Z.rem_mul_r v 10 q) by lia. lia.
Qed.
Lemma frac_spec p : forall v, 0 <= v -> exists D, snd (fmtFrac p false v []) = v / 10 ^ Z.of_nat p /\
  fst (fmtFrac p false v []) = (match D with [] => [] | _ => c_point :: D end) /\ Forall dig D /\ zlen D <= Z.of_nat p /\
  value D * 10 ^ (Z.of_nat p - zlen D) = v mod 10 ^ Z.of_nat p.
Proof.
  induction p as [|p IH]; intros v Hv.
  - exists []. cbn [fmtFrac fst snd]. change (10 ^ Z.of_nat 0) with 1. rewrite Z.div_1_r, Z.mod_1_r. repeat split; auto. rewrite zlen_nil. lia.
  - cbn [fmtFrac orb]. pose proof (Z.mod_pos_bound v 10 ltac:(lia)). rewrite Nat2Z.inj_succ, Z.pow_succ_r by lia.
    pose proof (Z.pow_pos_nonneg 10 (Z.of_nat p) ltac:(lia) ltac:(lia)) as P. set (q := 10 ^ Z.of_nat p) in *.
    destruct (Z.eqb_spec (v mod 10) 0) as [E|E]; cbn [negb].
    + destruct (IH (v / 10) ltac:(lia)) as (D & E1 & E2 & F & L & V). exists D. split; [rewrite E1; rewrite Z.div_div by lia; reflexivity|].
      split; [exact E2|]. split; [exact F|]. split; [lia|]. rewrite (Z.rem_mul_r v 10 q) by lia. rewrite E, <- V.
      replace (Z.succ (Z.of_nat p) - zlen D) with (1 + (Z.of_nat p - zlen D)) by lia. rewrite Z.pow_add_r by lia. rewrite Z.pow_1_r. ring.
    + destruct (frac_print p (v / 10) [48 + v mod 10] ltac:(lia)) as (D & E1 & L & F & V). exists (D ++ [48 + v mod 10]). rewrite E1. cbn [fst snd]. fold q.
      split; [rewrite Z.div_div by lia; reflexivity|]. split; [destruct D; reflexivity|]. split; [apply Forall_app; split; [exact F|constructor; [lia|constructor]]|].
      rewrite zlen_app, zlen_cons, zlen_nil, L. split; [lia|]. replace (Z.succ (Z.of_nat p) - (Z.of_nat p + (1 + 0))) with 0 by lia. rewrite Z.pow_0_r, Z.mul_1_r.
      unfold value in *. rewrite fold_left_app. cbn [fold_left]. rewrite V. fold q. rewrite (Z.rem_mul_r v 10 q) by lia. lia.
Qed.

(* ---- one number with its unit ---- *)
Definition unitc (c : Z) : bool := negb ((c =? c_point) || isdigit c).
Lemma span_unit u rest : forallb unitc u = true -> (match rest with [] => True | c :: _ => 48 <= c <= 57 end) -> span unitc (u ++ rest) = (u, rest).
Proof.
  induction u as [|c r IH]; intros H R.
  - cbn [app]. destruct rest as [|c r]; [reflexivity|]. cbn [span]. unfold unitc. rewrite (isdigit_true c R), Bool.orb_true_r. reflexivity.
  - cbn [forallb] in H. apply andb_prop in H as [H1 H2]. cbn [app span]. rewrite H1, IH by assumption. reflexivity.
Qed.
Lemma seg n d v D u unit rest : 0 <= v < 10 ^ 20 -> 0 <= d -> Forall dig D -> u <> [] -> forallb unitc u = true -> unit_of u = Some unit -> 0 < unit ->
  (match rest with [] => True | c :: _ => 48 <= c <= 57 end) ->
  value D <= maxInt -> d + (v * unit + value D * unit / 10 ^ zlen D) <= maxInt ->
  parseUnits (S n) d (decimal v ++ (match D with [] => [] | _ => c_point :: D end) ++ u ++ rest) = parseUnits n (d + (v * unit + value D * unit / 10 ^ zlen D)) rest.
Proof.
  intros Hv Hd HD Hu Hu2 Hun Hup Hr Hvd Hm. destruct (decimal_nonempty v Hv) as (c0 & l0 & E0 & Hc0).
  set (F := match D with [] => [] | _ => c_point :: D end). set (s := decimal v ++ F ++ u ++ rest).
  assert (S0 : exists s', s = c0 :: s') by (unfold s; rewrite E0; cbn [app]; eauto). destruct S0 as [s' Es].
  pose proof (Z.pow_pos_nonneg 10 (zlen D) ltac:(lia) (zlen_nonneg D)) as P10.
  assert (Fr : 0 <= value D * unit / 10 ^ zlen D) by (apply Z.div_pos; [|lia]; apply Z.mul_nonneg_nonneg; [apply dfold_ge; [lia|exact HD]|lia]).
  assert (Hvm : v * unit <= maxInt) by lia. assert (Hvx : v <= maxInt) by nia.
  destruct u as [|c1 u']; [congruence|]. cbn [forallb] in Hu2. apply andb_prop in Hu2 as [Hc1 Hu2'].
  assert (Nc1 : ~ (48 <= c1 <= 57)) by (intros K; unfold unitc in Hc1; rewrite (isdigit_true c1 K), Bool.orb_true_r in Hc1; discriminate).
  assert (Pc1 : (c1 =? c_point) = false) by (destruct (c1 =? c_point) eqn:Q; [unfold unitc in Hc1; rewrite Q in Hc1; discriminate|reflexivity]).
  assert (LI : leadingInt 0 s = Some (v, F ++ (c1 :: u') ++ rest)).
  { unfold s. rewrite leadingInt_digits; [fold (value (decimal v)); rewrite decimal_value by exact Hv; reflexivity|lia|apply decimal_digits| |fold (value (decimal v)); rewrite decimal_value by exact Hv; lia].
    unfold F. destruct D; cbn [app stops]; [exact Nc1|unfold c_point; lia]. }
  rewrite Es. cbn [parseUnits]. rewrite <- Es. rewrite (isdigit_true c0 Hc0), Bool.orb_true_r. cbn [negb]. rewrite LI.
  assert (Pre : (zlen s =? zlen (F ++ (c1 :: u') ++ rest)) = false).
  { unfold s. rewrite zlen_app, E0, zlen_cons. pose proof (zlen_nonneg l0). lia. }
  rewrite Pre. cbn [negb].
  assert (Sp : span unitc ((c1 :: u') ++ rest) = (c1 :: u', rest)) by (apply span_unit; [cbn [forallb]; rewrite Hc1; exact Hu2'|exact Hr]).
  assert (Sel : (match F ++ (c1 :: u') ++ rest with
                | x :: t => if x =? c_point then let '(f, scale, r) := leadingFraction false 0 1 t in (f, scale, r, negb (zlen t =? zlen r)) else (0, 1, F ++ (c1 :: u') ++ rest, false)
                | [] => (0, 1, F ++ (c1 :: u') ++ rest, false)
                end) = (value D, 10 ^ zlen D, (c1 :: u') ++ rest, match D with [] => false | _ => true end)).
  { unfold F. destruct D as [|d0 D'].
    - cbn [app]. rewrite Pc1. reflexivity.
    - cbn [app]. rewrite Z.eqb_refl. change (d0 :: D' ++ c1 :: u' ++ rest) with ((d0 :: D') ++ (c1 :: u') ++ rest).
      rewrite leadingFraction_digits; [|lia|exact HD|exact Nc1|exact Hvd]. fold (value (d0 :: D')). rewrite Z.mul_1_l. repeat f_equal.
      rewrite zlen_app, zlen_cons. pose proof (zlen_nonneg D'). lia. }
  lazymatch goal with |- match ?M with _ => _ end = _ => replace M with (value D, 10 ^ zlen D, (c1 :: u') ++ rest, match D with [] => false | _ => true end) by (symmetry; exact Sel) end.
  rewrite Bool.andb_false_l. change (fun c => negb ((c =? c_point) || isdigit c)) with unitc. rewrite Sp, Hun.
  assert (B1 : (maxInt / unit <? v) = false) by (apply Z.ltb_ge; apply Z.div_le_lower_bound; lia). rewrite B1.
  assert (V : (if 0 <? value D then value D * unit / 10 ^ zlen D else 0) = value D * unit / 10 ^ zlen D).
  { destruct (Z.ltb_spec 0 (value D)) as [K|K]; [reflexivity|]. assert (Z0 : value D = 0) by (pose proof (dfold_ge D 0 ltac:(lia) HD) as G; fold (value D) in G; lia). rewrite Z0. reflexivity. }
  rewrite V. replace (maxInt <? v * unit + value D * unit / 10 ^ zlen D) with false by lia.
  replace (maxInt <? d + (v * unit + value D * unit / 10 ^ zlen D)) with false by lia. reflexivity.
Qed.
Lemma parseUnits_more : forall n n' d s r, (n <= n')%nat -> parseUnits n d s = Some r -> parseUnits n' d s = Some r.
Proof.
  induction n as [|n IH]; intros n' d s r L E.
  - destruct s; [cbn in E; destruct n'; exact E|discriminate E].
  - destruct s as [|c s]; [cbn in E; destruct n'; exact E|]. destruct n' as [|n']; [lia|]. cbn [parseUnits] in *.
    destruct (negb _); [discriminate|]. destruct (leadingInt 0 (c :: s)) as [[v s1]|]; [|discriminate].
    destruct (match s1 with [] => _ | _ :: _ => _ end) as [[[f scale] s2] post]. destruct (_ && _); [discriminate|].
    destruct (span _ s2) as [u s3]. destruct (unit_of u) as [unit|]; [|discriminate]. destruct (_ <? v); [discriminate|].
    destruct (maxInt <? _); [discriminate|]. destruct (maxInt <? _); [discriminate|]. apply IH; [lia|exact E].
Qed.
