(* Prop_Ratio.v -- C176: exact numbers are written and read back. *)
From Coq Require Import QArith.
From Coq Require QArith.Qcanon.
From Verif Require Import Base M_Scan M_Strings M_Format M_Dispatch M_Number P_Format3 M_Radix S_Radix Prop_Radix M_Ratio.
From Coq Require Import Lia.
Open Scope Z_scope.

(* the rational that a number is *)
Definition exact_value (v : bignum) : Q := match v with BI z => inject_Z z | BR q => q end.
Definition sign (z : Z) : text := if z <? 0 then [r_macron] else [].

Lemma digits_of_radix fuel : forall n acc, digits_of fuel n acc = radix_digits 10 fuel n acc.
Proof.
  induction fuel as [|fuel IH]; intros n acc; [reflexivity|]. cbn [digits_of radix_digits]. unfold upper_digit.
  pose proof (Z.mod_pos_bound n 10 ltac:(lia)). replace (n mod 10 <? 10) with true by lia. rewrite IH. reflexivity.
Qed.
Lemma bigDecimal_numeral n : 0 <= n -> numeral 10 n (bigDecimal n).
Proof.
  intros H. unfold bigDecimal. rewrite digits_of_radix. set (f := S (Z.to_nat (Z.log2 n))).
  destruct (radix_digits_spec 10 ltac:(lia) f n) as (ds & E & R & V & Z0).
  - split; [exact H|]. assert (F : Z.of_nat f = Z.succ (Z.log2 n)) by (unfold f; pose proof (Z.log2_nonneg n); lia). rewrite F.
    destruct (Z.eq_dec n 0) as [->|N]; [reflexivity|]. pose proof (Z.log2_spec n ltac:(lia)) as (_ & L).
    eapply Z.lt_le_trans; [exact L|]. apply Z.pow_le_mono_l. lia.
  - unfold f. lia.
  - exists ds. split; [rewrite E, app_nil_r; reflexivity|]. split; [exact R|]. split; [exact V|]. destruct Z0 as [(_ & Z0)|Z0]; [left|right]; exact Z0.
Qed.

Lemma numeral_runes n t : numeral 10 n t -> Forall (fun r => 48 <= r <= 57) t.
Proof.
  intros (ds & -> & R & _). apply Forall_map. eapply Forall_impl; [|exact R]. intros d H. cbv beta in *. unfold glyph. replace (d <? 10) with true by lia. lia.
Qed.
Lemma numeral_digits n t : numeral 10 n t -> digits_value 10 0 t = Some n.
Proof. intros (ds & -> & R & V & _). rewrite glyphs_value by (assumption || lia). fold (horner 10 ds). rewrite V. reflexivity. Qed.
Lemma numeral_head n t : numeral 10 n t -> t = [48] /\ n = 0 \/ exists r t', t = r :: t' /\ r <> 48.
Proof.
  intros (ds & -> & R & V & [->|(d & ds' & -> & N)]); [left; split; [reflexivity|]; rewrite <- V; reflexivity|].
  right. exists (glyph d), (map glyph ds'). split; [reflexivity|]. inversion R; subst. unfold glyph. destruct (d <? 10) eqn:Q; lia.
Qed.
Lemma numeral_nonneg_aux ds : Forall (fun d => 0 <= d < 10) ds -> 0 <= horner 10 ds.
Proof.
  intros R. induction R as [|d ds Hd R IH]; [unfold horner; cbn; lia|]. rewrite horner_cons. pose proof (Z.pow_nonneg 10 (zlen ds) ltac:(lia)). nia.
Qed.
Lemma unsigned_numeral n t : numeral 10 n t -> unsigned_value t = Some n.
Proof.
  intros N. destruct (numeral_head _ _ N) as [(-> & ->)|(r & t' & -> & R)]; [reflexivity|].
  unfold unsigned_value. replace (r =? 48) with false by lia. exact (numeral_digits _ _ N).
Qed.

Lemma no_minus t : Forall (fun r => 48 <= r <= 57) t -> map (fun r => if r =? r_minus then r_macron else r) t = t.
Proof. intros H. rewrite <- (map_id t) at 2. apply map_ext_in. intros r Hr. rewrite Forall_forall in H. specialize (H r Hr). unfold r_minus. replace (r =? 45) with false by lia. reflexivity. Qed.

(* the text of an integer *)
Theorem C176_integer_text : forall z, exists t, numeral 10 (Z.abs z) t /\ IntString z = sign z ++ t.
Proof.
  intros z. exists (bigDecimal (Z.abs z)). pose proof (bigDecimal_numeral (Z.abs z) ltac:(lia)) as N. split; [exact N|].
  unfold IntString, bigIntText, sign. destruct (z <? 0) eqn:Q.
  - replace (- z) with (Z.abs z) by lia. rewrite Z.eqb_refl. reflexivity.
  - replace (Z.abs z) with z in * by lia. pose proof (numeral_runes _ _ N) as F. destruct (bigDecimal z) as [|r t]; [reflexivity|].
    inversion F; subst. unfold r_minus. replace (r =? 45) with false by lia. reflexivity.
Qed.

Lemma minus_runes t : Forall (fun r => 48 <= r <= 57) t -> macron_to_minus t = t.
Proof. apply macron_digits. Qed.
Definition msign (z : Z) : text := if z <? 0 then [r_minus] else [].
Lemma macron_sign z s : macron_to_minus (sign z ++ s) = msign z ++ macron_to_minus s.
Proof. unfold sign, msign. destruct (z <? 0); reflexivity. Qed.
Lemma signed_text {A} (f : bool -> text -> A) z r t : 48 <= r <= 57 -> signed f (msign z ++ r :: t) = f (z <? 0) (r :: t).
Proof. intros H. unfold msign, signed. destruct (z <? 0); [reflexivity|]. cbn [app]. replace (r =? 45) with false by lia. replace (r =? 43) with false by lia. reflexivity. Qed.
Lemma numeral_cons n t : numeral 10 n t -> exists r t', t = r :: t' /\ 48 <= r <= 57.
Proof.
  intros N. pose proof (numeral_runes _ _ N) as F. destruct t as [|r t]; [exfalso; exact (glyphs_nonempty _ _ _ N eq_refl)|].
  inversion F; subst. exists r, t. split; [reflexivity|assumption].
Qed.

Lemma not_bool c x t : Forall (fun r => r <> 98) (firstn 2 (x :: t)) -> list_eqb (x :: t) [c; 98] = false.
Proof.
  intros F. destruct (list_eqb (x :: t) [c; 98]) eqn:Q; [|reflexivity]. apply list_eqb_eq in Q. rewrite Q in F. cbn in F.
  inversion F as [|? ? _ F']; subst. inversion F' as [|? ? N _]; subst. congruence.
Qed.
Lemma sign_not_bool c z u v : Forall (fun r => 48 <= r <= 57) u -> u <> [] -> Forall (fun r => r <> 98) (firstn 1 v) -> list_eqb (sign z ++ u ++ v) [c; 98] = false.
Proof.
  intros F NE V. destruct u as [|x u]; [congruence|]. inversion F as [|? ? Hx F']; subst. unfold sign. destruct (z <? 0); cbn [app]; apply not_bool.
  - cbn. constructor; [unfold r_macron; lia|]. constructor; [lia|constructor].
  - cbn. constructor; [lia|]. destruct u as [|y u]; cbn [app]; [exact V|]. inversion F'; subst. constructor; [lia|constructor].
Qed.
(* every integer is read back from its text, of any size *)
Lemma read_integer strict ft z t : numeral 10 (Z.abs z) t -> readExact strict ft (sign z ++ t) = Some (BI z).
Proof.
  intros N. destruct (numeral_cons _ _ N) as (r & t' & -> & Hr). pose proof (numeral_runes _ _ N) as F.
  unfold readExact.
  assert (BX : forall c, list_eqb (sign z ++ r :: t') [c; 98] = false).
  { intros c. rewrite <- (app_nil_r (r :: t')). apply sign_not_bool; [exact F|discriminate|constructor]. }
  rewrite !BX. unfold ParseInt, BigParseInt. rewrite macron_sign, (minus_runes _ F).
  assert (S10 : SetString10 (msign z ++ r :: t') = Some z).
  { unfold SetString10. rewrite signed_text by exact Hr. unfold decimal_value. rewrite (numeral_digits _ _ N). cbn [option_map]. unfold negated. destruct (z <? 0) eqn:Q; f_equal; lia. }
  rewrite S10. unfold parse_int64, msign. destruct (z <? 0) eqn:Q.
  - cbn [app]. change (r_minus =? 45) with true. cbn iota. rewrite (unsigned_numeral _ _ N). replace (- Z.abs z) with z by lia.
    destruct ((-9223372036854775808 <=? z) && (z <=? 9223372036854775807)); reflexivity.
  - cbn [app]. replace (r =? 45) with false by lia. replace (r =? 43) with false by lia. rewrite (unsigned_numeral _ _ N). replace (Z.abs z) with z by lia.
    destruct ((-9223372036854775808 <=? z) && (z <=? 9223372036854775807)); reflexivity.
Qed.

(* a fraction is no integer for the first two readers *)
Lemma digits_r base : base <= 27 -> forall u n v, digits_value base n (u ++ r_r :: v) = None.
Proof.
  intros B. induction u as [|x u IH]; intros n v.
  - cbn [app digits_value]. replace (digit_value base r_r) with (@None Z); [reflexivity|]. unfold digit_value. cbn. replace (27 <? base) with false by lia. reflexivity.
  - cbn [app digits_value]. destruct (digit_value base x); [apply IH|reflexivity].
Qed.
Lemma unsigned_r u v : Forall (fun r => 48 <= r <= 57) u -> unsigned_value (u ++ r_r :: v) = None.
Proof.
  intros F. unfold unsigned_value. destruct u as [|x u]; cbn [app].
  - change (r_r =? 48) with false. cbn iota. apply (digits_r 10 ltac:(lia) []).
  - destruct (x =? 48).
    + destruct u as [|y u]; cbn [app].
      * change (in_runes r_r [120; 88]) with false. cbn iota. apply (digits_r 8 ltac:(lia) []).
      * inversion F as [|? ? _ F']; subst. inversion F'; subst. unfold in_runes. cbn [existsb]. replace ((y =? 120) || ((y =? 88) || false)) with false by lia.
        apply (digits_r 8 ltac:(lia) (y :: u)).
    + apply (digits_r 10 ltac:(lia) (x :: u)).
Qed.
Lemma scan_numeral ds : Forall (fun d => 0 <= d < 10) ds -> forall n, scan_digits 10 n (map glyph ds) = (fold_left (fun n d => n * 10 + d) ds n, []).
Proof.
  induction 1 as [|d ds Hd F IH]; intros n; [reflexivity|]. cbn [map scan_digits fold_left]. rewrite glyph_digit by lia. apply IH.
Qed.
Lemma nat_scan_numeral n t : numeral 10 n t -> nat_scan t = Some (n, []).
Proof.
  intros N. destruct (numeral_head _ _ N) as [(-> & ->)|(r & t' & -> & R)]; [reflexivity|].
  unfold nat_scan. replace (r =? 48) with false by lia. destruct N as (ds & E & F & V & _). rewrite E. destruct ds as [|d ds]; [discriminate|].
  unfold digits_needed. cbn [map]. inversion F; subst. rewrite glyph_digit by lia. f_equal.
  pose proof (scan_numeral (d :: ds) F 0) as S. cbn [map] in S. rewrite S. reflexivity.
Qed.
Lemma cut_here u v : Forall (fun r => r <> r_slash) u -> cut_slash (u ++ r_slash :: v) = Some (u, v).
Proof. induction 1 as [|x u Hx F IH]; [reflexivity|]. cbn [app cut_slash]. replace (x =? r_slash) with false by lia. rewrite IH. reflexivity. Qed.
Lemma replace1_here a b u v : Forall (fun r => r <> a) u -> replace1 a b (u ++ a :: v) = u ++ b :: v.
Proof. induction 1 as [|x u Hx F IH]; cbn [app replace1]; [rewrite Z.eqb_refl; reflexivity|]. replace (x =? a) with false by lia. rewrite IH. reflexivity. Qed.

(* Every way to write a fraction, in lowest terms or not, is read as the exact quotient. *)
Lemma read_any strict ft s n tn d td : numeral 10 n tn -> numeral 10 d td ->
  readExact strict ft (sign s ++ tn ++ r_r :: td) = if d =? 0 then None else Some (BR (Qred (Qmake (if s <? 0 then - n else n) (Z.to_pos d)))).
Proof.
  intros N D. pose proof (numeral_runes _ _ N) as FN. pose proof (numeral_runes _ _ D) as FD. destruct (numeral_cons _ _ N) as (r & t' & Et & Hr).
  unfold readExact.
  assert (BX : forall c, list_eqb (sign s ++ tn ++ r_r :: td) [c; 98] = false).
  { intros c. apply sign_not_bool; [exact FN|rewrite Et; discriminate|]. cbn. constructor; [unfold r_r; lia|constructor]. }
  rewrite !BX.
  assert (M : macron_to_minus (sign s ++ tn ++ r_r :: td) = msign s ++ tn ++ r_r :: td).
  { rewrite macron_sign. unfold macron_to_minus. rewrite map_app. cbn [map]. fold (macron_to_minus tn). fold (macron_to_minus td). rewrite !minus_runes by assumption. reflexivity. }
  assert (PI : ParseInt (sign s ++ tn ++ r_r :: td) = None).
  { unfold ParseInt. rewrite M. unfold parse_int64, msign. destruct (s <? 0).
    - cbn [app]. change (r_minus =? 45) with true. cbn iota. rewrite unsigned_r by assumption. reflexivity.
    - rewrite Et in *. cbn [app]. replace (r =? 45) with false by lia. replace (r =? 43) with false by lia. change (r :: t' ++ r_r :: td) with ((r :: t') ++ r_r :: td). rewrite unsigned_r by assumption. reflexivity. }
  assert (PB : BigParseInt (sign s ++ tn ++ r_r :: td) = None).
  { unfold BigParseInt. rewrite M. unfold SetString10. rewrite Et in *. cbn [app]. rewrite signed_text by exact Hr. unfold decimal_value.
    pose proof (digits_r 10 ltac:(lia) (r :: t') 0 td) as DR. cbn [app] in DR. rewrite DR. reflexivity. }
  rewrite PI, PB. unfold ParseRat. rewrite M.
  assert (RP : replace1 r_r r_slash (msign s ++ tn ++ r_r :: td) = (msign s ++ tn) ++ r_slash :: td).
  { rewrite app_assoc. apply replace1_here. apply Forall_app. split.
    - unfold msign. destruct (s <? 0); repeat constructor. unfold r_minus, r_r. lia.
    - eapply Forall_impl; [|exact FN]. intros x Hx. cbv beta in Hx. unfold r_r. lia. }
  rewrite RP. unfold RatSetString.
  assert (C : cut_slash ((msign s ++ tn) ++ r_slash :: td) = Some (msign s ++ tn, td)).
  { apply cut_here. apply Forall_app. split.
    - unfold msign. destruct (s <? 0); repeat constructor. unfold r_minus, r_slash. lia.
    - eapply Forall_impl; [|exact FN]. intros x Hx. cbv beta in Hx. unfold r_slash. lia. }
  assert (NE : exists y ys, (msign s ++ tn) ++ r_slash :: td = y :: ys).
  { unfold msign. destruct (s <? 0); rewrite Et; cbn [app]; eexists _, _; reflexivity. }
  destruct NE as (y & ys & NE). rewrite NE in *. rewrite C. rewrite Et in *. rewrite signed_text by exact Hr.
  rewrite (nat_scan_numeral _ _ N), (nat_scan_numeral _ _ D). cbn [complete option_map]. replace (strict && negb true) with false by (destruct strict; reflexivity).
  destruct (d =? 0); reflexivity.
Qed.
Lemma read_fraction strict ft s n tn d td : numeral 10 n tn -> numeral 10 d td -> 0 < d ->
  readExact strict ft (sign s ++ tn ++ r_r :: td) = Some (BR (Qred (Qmake (if s <? 0 then - n else n) (Z.to_pos d)))).
Proof. intros N D P. rewrite (read_any strict ft s n tn d td N D). replace (d =? 0) with false by lia. reflexivity. Qed.
Theorem C176_fraction : forall strict ft n d tn td, numeral 10 (Z.abs n) tn -> numeral 10 (Zpos d) td ->
  exists q, readExact strict ft (sign n ++ tn ++ r_r :: td) = Some (BR q) /\ (q == Qmake n d)%Q.
Proof.
  intros strict ft n d tn td N D. eexists. split; [apply (read_fraction strict ft n (Z.abs n) tn (Zpos d) td N D); lia|].
  rewrite Qred_correct. replace (if n <? 0 then - Z.abs n else Z.abs n) with n by (destruct (n <? 0) eqn:Q; lia). reflexivity.
Qed.

(* the text of a fraction *)
Lemma one_suffix_den u t d : numeral 10 d t -> 0 < d -> one_suffix (u ++ r_slash :: t) = (d =? 1).
Proof.
  intros N P. pose proof (numeral_runes _ _ N) as F. destruct N as (ds & -> & R & V & Z0).
  unfold one_suffix. replace (u ++ r_slash :: map glyph ds) with ((u ++ [r_slash]) ++ map glyph ds) by (rewrite <- app_assoc; reflexivity).
  rewrite rev_app_distr, rev_app_distr. cbn [rev app].
  destruct ds as [|d0 ds] using rev_ind; [destruct Z0 as [Z0|(? & ? & Z0 & _)]; discriminate|]. clear IHds.
  rewrite map_app, rev_app_distr. cbn [map rev app].
  apply Forall_app in R. destruct R as (R1 & R2). inversion R2; subst. rewrite map_app in F. apply Forall_app in F. destruct F as (F1 & F2).
  destruct ds as [|d1 ds] using rev_ind.
  - cbn [map rev app]. change (r_slash =? r_slash) with true. rewrite andb_true_r. unfold glyph, horner. cbn [fold_left app]. replace (d0 <? 10) with true by lia.
    destruct (Z.eq_dec d0 1) as [->|N1]; [reflexivity|]. replace (48 + d0 =? 49) with false by lia. symmetry. apply Z.eqb_neq. lia.
  - clear IHds. rewrite map_app, rev_app_distr. cbn [map rev app]. rewrite map_app in F1. apply Forall_app in F1. destruct F1 as (_ & F1). inversion F1; subst.
    replace (glyph d1 =? r_slash) with false by (unfold r_slash; lia). rewrite andb_false_r. symmetry. apply Z.eqb_neq. intros E.
    destruct Z0 as [Z0|(e & es & Z0 & NZ)].
    + apply (f_equal (@length Z)) in Z0. rewrite !app_length in Z0. cbn in Z0. lia.
    + rewrite Z0 in E. rewrite horner_cons in E.
      assert (L : 1 <= zlen es). { apply (f_equal (@length Z)) in Z0. rewrite !app_length in Z0. cbn in Z0. unfold zlen. lia. }
      assert (e_pos : 0 <= e < 10 /\ Forall (fun d => 0 <= d < 10) es).
      { assert (RR : Forall (fun d => 0 <= d < 10) ((ds ++ [d1]) ++ [d0])) by (apply Forall_app; split; [exact R1|constructor; [assumption|constructor]]). rewrite Z0 in RR. inversion RR; subst. split; assumption. }
      destruct e_pos as (e_pos & es_pos). assert (H0 : 0 <= horner 10 es) by (apply (numeral_nonneg_aux es es_pos)).
      assert (10 ^ 1 <= 10 ^ zlen es) by (apply Z.pow_le_mono_r; lia). nia.
Qed.
Lemma bigIntText_sign z : exists t, numeral 10 (Z.abs z) t /\ bigIntText z = msign z ++ t.
Proof.
  exists (bigDecimal (Z.abs z)). split; [apply bigDecimal_numeral; lia|]. unfold bigIntText, msign. destruct (z <? 0) eqn:Q; cbn [app].
  - replace (- z) with (Z.abs z) by lia. reflexivity.
  - replace (Z.abs z) with z by lia. reflexivity.
Qed.
Lemma rat_text minus q : exists tn td, numeral 10 (Z.abs (Qnum (Qred q))) tn /\ numeral 10 (Zpos (Qden (Qred q))) td
  /\ RatString minus q = (if minus then msign (Qnum (Qred q)) else sign (Qnum (Qred q))) ++ tn ++ (if (Zpos (Qden (Qred q)) =? 1)%Z then [] else r_r :: td).
Proof.
  unfold RatString. set (n := Qnum (Qred q)). set (d := Zpos (Qden (Qred q))).
  destruct (bigIntText_sign n) as (tn & N & E). pose proof (bigDecimal_numeral d ltac:(unfold d; lia)) as D.
  exists tn, (bigDecimal d). split; [exact N|]. split; [exact D|].
  pose proof (numeral_runes _ _ N) as FN. pose proof (numeral_runes _ _ D) as FD. rewrite E. set (td := bigDecimal d) in *. clearbody td.
  set (g := if minus then msign n else sign n).
  assert (G : (if minus then (msign n ++ tn) ++ r_slash :: td else map (fun r => if r =? r_minus then r_macron else r) ((msign n ++ tn) ++ r_slash :: td)) = (g ++ tn) ++ r_slash :: td).
  { unfold g. destruct minus; [reflexivity|]. rewrite !map_app. cbn [map]. rewrite (no_minus tn FN), (no_minus td FD). change (r_slash =? r_minus) with false. cbn iota.
    unfold msign, sign. destruct (n <? 0); reflexivity. }
  rewrite G. rewrite (one_suffix_den (g ++ tn) td d D) by (unfold d; lia). destruct (d =? 1) eqn:Q.
  - destruct (numeral_head _ _ D) as [(_ & Z0)|_]; [unfold d in Z0; lia|].
    assert (T1 : td = [49]).
    { apply Z.eqb_eq in Q. rewrite Q in D. destruct (numeral_value 10 td ltac:(lia) 1 1 D D). destruct D as (ds & -> & R & V & [->|(e & es & -> & NZ)]); [discriminate|].
      rewrite horner_cons in V. inversion R; subst. pose proof (numeral_nonneg_aux es ltac:(assumption)).
      destruct es as [|e2 es]; [|exfalso; rewrite zlen_cons in V; pose proof (Z.pow_pos_nonneg 10 (zlen es) ltac:(lia) ltac:(unfold zlen; lia)) as PP; rewrite Z.add_1_l, Z.pow_succ_r in V by (unfold zlen; lia); nia].
      unfold zlen, horner in V. cbn in V. replace e with 1 by lia. reflexivity. }
    rewrite T1. rewrite !app_length. cbn [length]. rewrite firstn_app. rewrite firstn_all2 by (rewrite app_length; lia).
    replace (length g + length tn + 2 - 2 - length (g ++ tn))%nat with 0%nat by (rewrite app_length; lia). cbn [firstn]. rewrite !app_nil_r. reflexivity.
  - rewrite <- app_assoc. rewrite app_assoc, replace1_here; [rewrite <- app_assoc; reflexivity|]. apply Forall_app. split.
    + unfold g, msign, sign. destruct minus, (n <? 0); repeat constructor; unfold r_minus, r_macron, r_slash; lia.
    + eapply Forall_impl; [|exact FN]. intros x Hx. cbv beta in Hx. unfold r_slash. lia.
Qed.
(* The text of a fraction in lowest terms: the sign, the numerator and, unless it is 1, the denominator after r. *)
Theorem C176_fraction_text : forall n d, Z.gcd n (Zpos d) = 1 -> exists tn td, numeral 10 (Z.abs n) tn /\ numeral 10 (Zpos d) td
  /\ RatString false (Qmake n d) = sign n ++ tn ++ (if Pos.eqb d 1 then [] else r_r :: td).
Proof.
  intros n d G. destruct (rat_text false (Qmake n d)) as (tn & td & N & D & E).
  assert (R : Qred (Qmake n d) = Qmake n d) by (apply Qcanon.Qred_identity; exact G). rewrite R in *. cbn [Qnum Qden] in *.
  exists tn, td. split; [exact N|]. split; [exact D|]. rewrite E. reflexivity.
Qed.

(* Every exact number is read back from its text, as an integer if it is one. *)
Theorem C176_read : forall strict ft v, exists w, readExact strict ft (bigString false v) = Some w
  /\ (exact_value w == exact_value v)%Q
  /\ match w with BI _ => True | BR q => forall z, ~ (q == inject_Z z)%Q end.
Proof.
  intros strict ft [z|q]; cbn [bigString].
  - destruct (C176_integer_text z) as (t & N & E). exists (BI z). rewrite E. split; [apply read_integer; exact N|]. split; [reflexivity|exact I].
  - destruct (rat_text false q) as (tn & td & N & D & E). rewrite E. set (n := Qnum (Qred q)) in *.
    assert (V : (q == Qmake n (Qden (Qred q)))%Q). { unfold n. rewrite <- (Qred_correct q) at 1. destruct (Qred q). reflexivity. }
    destruct (Zpos (Qden (Qred q)) =? 1) eqn:Q.
    + exists (BI n). rewrite app_nil_r. split; [apply read_integer; exact N|]. split; [|exact I]. cbn [exact_value]. apply Z.eqb_eq in Q. injection Q as Q'. rewrite Q' in V. apply Qeq_sym. exact V.
    + destruct (C176_fraction strict ft n (Qden (Qred q)) tn td N D) as (x & Rx & Ex). exists (BR x). split; [exact Rx|]. cbn [exact_value]. split; [apply (Qeq_trans _ _ _ Ex), Qeq_sym; exact V|].
      intros z Hz. assert (QZ : (q == inject_Z z)%Q) by (apply (Qeq_trans _ _ _ V), (Qeq_trans _ x); [apply Qeq_sym; exact Ex|exact Hz]). apply Qred_complete in QZ.
      assert (RZ : Qred (inject_Z z) = inject_Z z) by (apply Qcanon.Qred_identity; cbn; apply Z.gcd_1_r). rewrite RZ in QZ. rewrite QZ in Q. cbn in Q. discriminate.
Qed.
(* different numbers have different texts *)
Theorem C176_distinct : forall v w, bigString false v = bigString false w -> (exact_value v == exact_value w)%Q.
Proof.
  intros v w E. destruct (C176_read false (fun _ => None) v) as (a & Ra & Va & _). destruct (C176_read false (fun _ => None) w) as (b & Rb & Vb & _).
  rewrite E in Ra. assert (a = b) by congruence. subst b. rewrite <- Va. exact Vb.
Qed.
(* the text is one number token of a program *)
Lemma scan_number_all w rest : Forall (fun r => number_rune r = true) w -> (match rest with [] => True | r :: _ => number_rune r = false end) -> ScanNumber (w ++ rest) = (w, rest).
Proof.
  intros F HR. induction F as [|r w Hr F IH].
  - destruct rest as [|r rest]; [reflexivity|]. cbn. rewrite HR. reflexivity.
  - cbn [app ScanNumber]. rewrite Hr, IH. reflexivity.
Qed.
Theorem C176_token : forall v rest, (match rest with [] => True | r :: _ => number_rune r = false end) ->
  ScanNumber (bigString false v ++ rest) = (bigString false v, rest).
Proof.
  intros v rest HR. apply scan_number_all; [|exact HR].
  assert (D : forall t, Forall (fun r => 48 <= r <= 57) t -> Forall (fun r => number_rune r = true) t).
  { intros t F. eapply Forall_impl; [|exact F]. intros r H. cbv beta in H. unfold number_rune, digit, rune_range. lia. }
  destruct v as [z|q]; cbn [bigString].
  - destruct (C176_integer_text z) as (t & N & ->). apply Forall_app. split; [unfold sign; destruct (z <? 0); repeat constructor|]. apply D, (numeral_runes _ _ N).
  - destruct (rat_text false q) as (tn & td & N & M & ->). apply Forall_app. split; [unfold sign; destruct (Qnum (Qred q) <? 0); repeat constructor|].
    apply Forall_app. split; [apply D, (numeral_runes _ _ N)|]. destruct (Zpos (Qden (Qred q)) =? 1); constructor; [reflexivity|apply D, (numeral_runes _ _ M)].
Qed.
(* no fraction has the denominator 0 *)
Theorem C176_zero_denominator : forall strict ft n tn, numeral 10 (Z.abs n) tn -> readExact strict ft (sign n ++ tn ++ [r_r; 48]) = None.
Proof.
  intros strict ft n tn N. assert (D : numeral 10 0 [48]) by (exists [0]; repeat split; [repeat constructor; lia|left; reflexivity]).
  rewrite (read_any strict ft n _ tn 0 [48] N D). reflexivity.
Qed.

(* For the interchange formats (print precisions below ¯1) a negative fraction is written with -, a
   negative integer with ¯: only one of them can be what the reader expects, and - is not part of a number. *)
Theorem C176_interchange_refuted : forall z q, z < 0 -> (q < 0)%Q -> (exists t, bigString true (BI z) = r_macron :: t)
  /\ (exists t, bigString true (BR q) = r_minus :: t) /\ ScanNumber (bigString true (BR q)) = ([], bigString true (BR q)).
Proof.
  intros z q Hz Hq. split.
  - destruct (C176_integer_text z) as (t & _ & E). exists t. cbn [bigString]. rewrite E. unfold sign. replace (z <? 0) with true by lia. reflexivity.
  - destruct (rat_text true q) as (tn & td & _ & _ & E). cbn [bigString]. cbn iota in E.
    assert (S : Qnum (Qred q) < 0). { rewrite <- (Qred_correct q) in Hq. unfold Qlt in Hq. cbn in Hq. lia. }
    unfold msign in E. replace (Qnum (Qred q) <? 0) with true in E by lia. rewrite E. split; [eexists; reflexivity|reflexivity].
Qed.
(* Leading zeros: 017 is 15, but 018 is 18, and 0777777777777777777777777 is decimal, since the octal value
   is too large for the reader of machine integers. *)
Theorem C176_leading_zeros_refuted : forall strict ft,
  readExact strict ft [48; 49; 55] = Some (BI 15) /\ readExact strict ft [48; 49; 56] = Some (BI 18)
  /\ readExact strict ft (48 :: repeat 55 21) = Some (BI 9223372036854775807)
  /\ readExact strict ft (48 :: repeat 55 22) = Some (BI (10 ^ 22 * 7 / 9))
  /\ readExact strict ft [48; 49; 48; 114; 51] = Some (BR (8 # 3)) /\ readExact strict ft [51; 114; 48; 49; 48] = Some (BR (3 # 8)).
Proof. intros [|] ft; repeat split. Qed.
(* the booleans *)
Theorem C176_booleans : forall strict ft, readExact strict ft [49; 98] = Some (BI 1) /\ readExact strict ft [48; 98] = Some (BI 0).
Proof. intros strict ft. split; reflexivity. Qed.
(* a numerator that is followed by anything but r is refused *)
Lemma scan_stops ds x v : Forall (fun d => 0 <= d < 10) ds -> digit_value 10 x = None -> forall n,
  scan_digits 10 n (map glyph ds ++ x :: v) = (fold_left (fun n d => n * 10 + d) ds n, x :: v).
Proof.
  intros F X. induction F as [|d ds Hd F IH]; intros n; cbn [map app scan_digits fold_left]; [rewrite X; reflexivity|]. rewrite glyph_digit by lia. apply IH.
Qed.
Lemma digits_stop ds x v : digit_value 10 x = None -> Forall (fun d => 0 <= d < 10) ds -> forall n, digits_value 10 n (map glyph ds ++ x :: v) = None.
Proof.
  intros X F. induction F as [|d ds Hd F IH]; intros n; cbn [map app digits_value]; [rewrite X; reflexivity|]. rewrite glyph_digit by lia. apply IH.
Qed.
Theorem C176_malformed : forall strict ft n tn x td, n <> 0 -> numeral 10 (Z.abs n) tn -> digit_value 10 x = None ->
  x <> r_r -> x <> r_slash -> x <> r_macron -> 98 <> x -> Forall (fun r => 48 <= r <= 57) td ->
  readExact strict ft (sign n ++ tn ++ x :: r_r :: td) = None.
Proof.
  intros strict ft n tn x td NZ N X X1 X2 X3 X4 FD. pose proof (numeral_runes _ _ N) as FN. destruct (numeral_cons _ _ N) as (r & t' & Et & Hr).
  assert (NH : r <> 48). { destruct (numeral_head _ _ N) as [(_ & Q)|(r' & t2 & Q & R)]; [lia|]. congruence. }
  unfold readExact. assert (BX : forall c, list_eqb (sign n ++ tn ++ x :: r_r :: td) [c; 98] = false).
  { intros c. apply sign_not_bool; [exact FN|rewrite Et; discriminate|]. cbn. constructor; [congruence|constructor]. }
  rewrite !BX.
  assert (M : macron_to_minus (sign n ++ tn ++ x :: r_r :: td) = msign n ++ tn ++ x :: r_r :: td).
  { rewrite macron_sign. unfold macron_to_minus. rewrite map_app. cbn [map]. fold (macron_to_minus tn). fold (macron_to_minus td). rewrite !minus_runes by assumption.
    replace (x =? r_macron) with false by lia. reflexivity. }
  destruct N as (ds & E & FD2 & V & _). pose proof (fun m => digits_stop ds x (r_r :: td) X FD2 m) as DS. rewrite <- E in DS.
  assert (PI : ParseInt (sign n ++ tn ++ x :: r_r :: td) = None).
  { unfold ParseInt. rewrite M. unfold parse_int64. assert (U : unsigned_value (tn ++ x :: r_r :: td) = None).
    { unfold unsigned_value. specialize (DS 0). rewrite Et in *. cbn [app] in *. replace (r =? 48) with false by lia. exact DS. }
    unfold msign. destruct (n <? 0).
    - cbn [app]. change (r_minus =? 45) with true. cbn iota. rewrite U. reflexivity.
    - rewrite Et in *. cbn [app] in *. replace (r =? 45) with false by lia. replace (r =? 43) with false by lia. rewrite U. reflexivity. }
  assert (PB : BigParseInt (sign n ++ tn ++ x :: r_r :: td) = None).
  { unfold BigParseInt. rewrite M. unfold SetString10. specialize (DS 0). rewrite Et in *. cbn [app] in *. rewrite signed_text by exact Hr. unfold decimal_value. rewrite DS. reflexivity. }
  rewrite PI, PB. unfold ParseRat. rewrite M.
  assert (RP : replace1 r_r r_slash (msign n ++ tn ++ x :: r_r :: td) = (msign n ++ tn ++ [x]) ++ r_slash :: td).
  { replace (msign n ++ tn ++ x :: r_r :: td) with ((msign n ++ tn ++ [x]) ++ r_r :: td) by (rewrite <- !app_assoc; reflexivity). apply replace1_here.
    apply Forall_app. split; [unfold msign; destruct (n <? 0); repeat constructor; unfold r_minus, r_r; lia|]. apply Forall_app. split; [|constructor; [exact X1|constructor]].
    eapply Forall_impl; [|exact FN]. intros y Hy. cbv beta in Hy. unfold r_r. lia. }
  rewrite RP. unfold RatSetString.
  assert (C : cut_slash ((msign n ++ tn ++ [x]) ++ r_slash :: td) = Some (msign n ++ tn ++ [x], td)).
  { apply cut_here. apply Forall_app. split; [unfold msign; destruct (n <? 0); repeat constructor; unfold r_minus, r_slash; lia|]. apply Forall_app. split; [|constructor; [exact X2|constructor]].
    eapply Forall_impl; [|exact FN]. intros y Hy. cbv beta in Hy. unfold r_slash. lia. }
  assert (NE : exists y ys, (msign n ++ tn ++ [x]) ++ r_slash :: td = y :: ys).
  { unfold msign. destruct (n <? 0); rewrite Et; cbn [app]; eexists _, _; reflexivity. }
  destruct NE as (y & ys & NE). rewrite NE in *. rewrite C. rewrite Et in *. cbn [app]. rewrite signed_text by exact Hr.
  assert (S : nat_scan (r :: t' ++ [x]) = Some (Z.abs n, [x])).
  { unfold nat_scan. replace (r =? 48) with false by lia. unfold digits_needed. destruct ds as [|d ds]; [discriminate|]. pose proof (scan_stops (d :: ds) x [] FD2 X 0) as SS.
    rewrite <- E in SS. cbn [app] in SS. rewrite SS. cbn [map] in E. injection E as E1 E2. inversion FD2; subst. rewrite glyph_digit by lia. unfold horner in V. rewrite V. reflexivity. }
  rewrite S. reflexivity.
Qed.
(* older Go releases ignore what follows the denominator *)
Theorem C176_trailing_refuted : forall ft, readExact false ft [51; 114; 52; 120; 121] = Some (BR (3 # 4)) /\ readExact true ft [51; 114; 52; 120; 121] = None.
Proof. intros ft. split; reflexivity. Qed.

(* ¯3r4, 6r8, 2*64 and 10r5 *)
Example C176_example : forall strict ft,
  bigString false (BR (-6 # 8)) = [175; 51; 114; 52] /\ readExact strict ft [175; 51; 114; 52] = Some (BR (-3 # 4))
  /\ readExact strict ft [54; 114; 56] = Some (BR (3 # 4)) /\ readExact strict ft [51; 120; 114; 52] = None
  /\ bigString false (BI (2 ^ 64)) = [49; 56; 52; 52; 54; 55; 52; 52; 48; 55; 51; 55; 48; 57; 53; 53; 49; 54; 49; 54]
  /\ readExact strict ft (bigString false (BI (2 ^ 64))) = Some (BI (2 ^ 64))
  /\ bigString false (BR (10 # 5)) = [50].
Proof. intros [|] ft; repeat split. Qed.
Print Assumptions C176_integer_text.
Print Assumptions C176_fraction_text.
Print Assumptions C176_fraction.
Print Assumptions C176_read.
Print Assumptions C176_distinct.
Print Assumptions C176_token.
Print Assumptions C176_zero_denominator.
Print Assumptions C176_malformed.
Print Assumptions C176_interchange_refuted.
Print Assumptions C176_leading_zeros_refuted.
