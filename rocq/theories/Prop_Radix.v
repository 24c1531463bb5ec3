(* Prop_Radix.v -- C175: integers shown in octal and hexadecimal. *)
From Verif Require Import Base M_Array S_Array P_Array M_Scan S_Scan P_Scan M_Strings M_Format S_Format P_Format P_Format2 P_Format3 M_Radix S_Radix Prop_Format.
From Coq Require Import Lia.

Lemma upper_glyph d : 0 <= d -> upper_digit d = glyph d.
Proof. intros H. unfold upper_digit, glyph. destruct (d <? 10) eqn:Q; lia. Qed.
Lemma horner_acc base ds n : fold_left (fun n d => n * base + d) ds n = n * base ^ zlen ds + horner base ds.
Proof.
  unfold horner. revert n. induction ds as [|d ds IH]; intros n; [cbn; unfold zlen; cbn; lia|].
  cbn [fold_left]. rewrite IH. rewrite (IH (0 * base + d)). rewrite zlen_cons, Z.pow_add_r by (unfold zlen; lia). rewrite Z.pow_1_r. ring.
Qed.
Lemma horner_cons base d ds : horner base (d :: ds) = d * base ^ zlen ds + horner base ds.
Proof. unfold horner at 1. cbn [fold_left]. rewrite horner_acc. ring. Qed.
Lemma horner_app base ds es : horner base (ds ++ es) = horner base ds * base ^ zlen es + horner base es.
Proof. unfold horner at 1. rewrite fold_left_app. rewrite horner_acc. reflexivity. Qed.

Lemma radix_digits_spec base : 2 <= base -> forall fuel n, 0 <= n < base ^ Z.of_nat fuel -> (0 < fuel)%nat ->
  exists ds, (forall acc, radix_digits base fuel n acc = map glyph ds ++ acc) /\ Forall (fun d => 0 <= d < base) ds /\ horner base ds = n
  /\ (n = 0 /\ ds = [0] \/ exists d ds', ds = d :: ds' /\ d <> 0).
Proof.
  intros B. induction fuel as [|fuel IH]; intros n H F; [lia|]. pose proof (Z.mod_pos_bound n base ltac:(lia)) as M.
  cbn [radix_digits]. destruct (n <? base) eqn:Q.
  - exists [n]. rewrite Z.mod_small by lia. split; [intros acc; cbn; rewrite upper_glyph by lia; reflexivity|].
    split; [constructor; [lia|constructor]|]. split; [reflexivity|]. destruct (Z.eq_dec n 0) as [->|N]; [left; split; reflexivity|right; exists n, []; split; [reflexivity|exact N]].
  - rewrite Nat2Z.inj_succ, Z.pow_succ_r in H by lia. assert (F' : (0 < fuel)%nat) by (destruct fuel; [cbn in H; lia|lia]).
    destruct (IH (n / base)) as (ds & E & R & V & Z0); [split; [apply Z.div_pos; lia|apply Z.div_lt_upper_bound; lia]|exact F'|].
    exists (ds ++ [n mod base]). split.
    + intros acc. rewrite E, map_app, <- app_assoc. cbn. rewrite upper_glyph by lia. reflexivity.
    + split; [apply Forall_app; split; [exact R|constructor; [exact M|constructor]]|]. split.
      * rewrite horner_app, V. change (zlen [n mod base]) with 1. rewrite Z.pow_1_r. unfold horner. cbn. pose proof (Z.div_mod n base ltac:(lia)). lia.
      * right. destruct Z0 as [(Z0 & _)|(d & ds' & -> & N)].
        -- exfalso. assert (1 <= n / base) by (apply Z.div_le_lower_bound; lia). lia.
        -- exists d, (ds' ++ [n mod base]). split; [reflexivity|exact N].
Qed.
Lemma radix_numeral base n : 8 <= base -> 0 <= n <= 2 ^ 63 -> numeral base n (radix_digits base 22 n []).
Proof.
  intros B H. destruct (radix_digits_spec base ltac:(lia) 22 n) as (ds & E & R & V & Z0); [|lia|].
  - split; [lia|]. assert (8 ^ 22 <= base ^ 22) by (apply Z.pow_le_mono_l; lia). change (Z.of_nat 22) with 22. lia.
  - exists ds. split; [rewrite E, app_nil_r; reflexivity|]. split; [exact R|]. split; [exact V|]. destruct Z0 as [(_ & Z0)|Z0]; [left|right]; exact Z0.
Qed.

Lemma glyph_digit base d : base <= 36 -> 0 <= d < base -> digit_value base (glyph d) = Some d.
Proof.
  intros B H. unfold glyph, digit_value, digit, rune_range. destruct (d <? 10) eqn:Q.
  - replace ((48 <=? 48 + d) && (48 + d <=? 57)) with true by lia. replace (48 + d - 48) with d by lia. replace (d <? base) with true by lia. reflexivity.
  - replace ((48 <=? 65 + (d - 10)) && (65 + (d - 10) <=? 57)) with false by lia. replace ((97 <=? 65 + (d - 10)) && (65 + (d - 10) <=? 122)) with false by lia.
    replace ((65 <=? 65 + (d - 10)) && (65 + (d - 10) <=? 90)) with true by lia. replace (65 + (d - 10) - 55) with d by lia. replace (d <? base) with true by lia. reflexivity.
Qed.
Lemma glyphs_value base ds n : base <= 36 -> Forall (fun d => 0 <= d < base) ds ->
  digits_value base n (map glyph ds) = Some (fold_left (fun n d => n * base + d) ds n).
Proof.
  intros B. revert n. induction ds as [|d ds IH]; intros n H; [reflexivity|]. inversion H; subst. cbn [map digits_value fold_left].
  rewrite glyph_digit by assumption. apply IH. assumption.
Qed.
Lemma glyph_not_sign d : 0 <= d < 36 -> glyph d <> r_minus /\ glyph d <> r_macron /\ number_rune (glyph d) = true.
Proof. intros H. unfold glyph, r_minus, r_macron, number_rune, digit, rune_range. destruct (d <? 10) eqn:Q; lia. Qed.
Lemma glyphs_plain base ds : base <= 36 -> Forall (fun d => 0 <= d < base) ds ->
  replace_first (map glyph ds) = map glyph ds /\ macron_to_minus (map glyph ds) = map glyph ds /\ Forall (fun r => number_rune r = true) (map glyph ds).
Proof.
  intros B H. induction H as [|d ds Hd H (I1 & I2 & I3)]; [repeat split; constructor|]. destruct (glyph_not_sign d ltac:(lia)) as (G1 & G2 & G3).
  cbn [map replace_first]. unfold macron_to_minus in *. cbn [map]. replace (glyph d =? r_minus) with false by lia. replace (glyph d =? r_macron) with false by lia.
  rewrite I1, I2. split; [reflexivity|]. split; [reflexivity|]. constructor; assumption.
Qed.
Lemma glyphs_nonempty base n t : numeral base n t -> t <> [].
Proof. intros (ds & -> & _ & _ & [-> |(d & ds' & -> & _)]); discriminate. Qed.

(* the prefix that tells the base *)
Definition prefix (base : Z) : text := if base =? 8 then [48] else [48; 120].
Definition precision (base : Z) : Z := - base.
Definition small (base : Z) := base = 8 \/ base = 16.
(* The text: the prefix and the digits; for a negative number the sign follows the prefix. *)
Theorem C175_text : forall base z, small base -> - 2 ^ 63 <= z < 2 ^ 63 ->
  exists t, numeral base (Z.abs z) t
  /\ radixString (precision base) z = prefix base ++ (if z <? 0 then [r_macron] else []) ++ t.
Proof.
  intros base z B H. exists (radix_digits base 22 (Z.abs z) []).
  assert (N : numeral base (Z.abs z) (radix_digits base 22 (Z.abs z) [])) by (apply radix_numeral; [destruct B; lia|lia]).
  split; [exact N|]. destruct N as (ds & E & R & _). destruct (glyphs_plain base ds ltac:(destruct B; lia) R) as (P1 & _).
  assert (G : fmtInteger base z = (if z <? 0 then [r_minus] else []) ++ map glyph ds).
  { unfold fmtInteger. destruct (z <? 0) eqn:Q; [replace (- z) with (Z.abs z) by lia|replace z with (Z.abs z) at 1 by lia]; rewrite E; reflexivity. }
  rewrite E. unfold radixString, precision. destruct B as [-> | ->]; cbn [Z.eqb]; rewrite G; destruct (z <? 0);
    cbn -[fmtInteger radix_digits map]; rewrite ?P1; reflexivity.
Qed.

Lemma parse_octal_word r w : r <> 120 -> r <> 88 -> parse_int64 (48 :: r :: w) =
  match digits_value 8 0 (r :: w) with None => None | Some z => if (- 9223372036854775808 <=? z) && (z <=? 9223372036854775807) then Some z else None end.
Proof.
  intros H1 H2. unfold parse_int64. change (48 =? 45) with false. change (48 =? 43) with false. cbn iota zeta. unfold unsigned_value. change (48 =? 48) with true. cbn iota.
  unfold in_runes. cbn [existsb]. replace ((r =? 120) || ((r =? 88) || false)) with false by lia. reflexivity.
Qed.
Lemma parse_hex_word r w : parse_int64 (48 :: 120 :: r :: w) =
  match digits_value 16 0 (r :: w) with None => None | Some z => if (- 9223372036854775808 <=? z) && (z <=? 9223372036854775807) then Some z else None end.
Proof. reflexivity. Qed.
(* what is read for a number that is not negative *)
Theorem C175_read : forall base z, small base -> 0 <= z < 2 ^ 63 -> ParseInt (radixString (precision base) z) = Some z.
Proof.
  intros base z B H. destruct (C175_text base z B ltac:(lia)) as (t & N & E). rewrite E. replace (z <? 0) with false by lia.
  pose proof (glyphs_nonempty _ _ _ N) as NE. destruct N as (ds & -> & R & V & _). rewrite Z.abs_eq in V by lia.
  destruct (glyphs_plain base ds ltac:(destruct B; lia) R) as (_ & P2 & _). cbn [app].
  assert (L : (- 9223372036854775808 <=? z) && (z <=? 9223372036854775807) = true) by lia.
  pose proof (glyphs_value base ds 0 ltac:(destruct B; lia) R) as GV. fold (horner base ds) in GV. rewrite V in GV.
  assert (M : macron_to_minus (prefix base ++ map glyph ds) = prefix base ++ map glyph ds).
  { unfold macron_to_minus in *. rewrite map_app, P2. destruct B as [-> | ->]; reflexivity. }
  unfold ParseInt. rewrite M. destruct ds as [|d ds]; [exfalso; apply NE; reflexivity|]. cbn [map] in *.
  destruct B as [-> | ->].
  - assert (D : 0 <= d < 8) by (inversion R; assumption).
    change (prefix 8 ++ glyph d :: map glyph ds) with (48 :: glyph d :: map glyph ds). rewrite parse_octal_word by (unfold glyph; replace (d <? 10) with true by lia; lia).
    rewrite GV, L. reflexivity.
  - change (prefix 16 ++ glyph d :: map glyph ds) with (48 :: 120 :: glyph d :: map glyph ds). rewrite parse_hex_word. rewrite GV, L. reflexivity.
Qed.
(* a negative number is never read back as an integer, but for the token scanner it is one number *)
Theorem C175_negative_refuted : forall base z, small base -> - 2 ^ 63 <= z < 0 -> ParseInt (radixString (precision base) z) = None.
Proof.
  intros base z B H. destruct (C175_text base z B ltac:(lia)) as (t & N & E). rewrite E. replace (z <? 0) with true by lia.
  unfold ParseInt, macron_to_minus. destruct B as [-> | ->]; reflexivity.
Qed.
Theorem C175_token : forall base z rest, small base -> - 2 ^ 63 <= z < 2 ^ 63 ->
  (match rest with [] => True | r :: _ => number_rune r = false end) ->
  ScanNumber (radixString (precision base) z ++ rest) = (radixString (precision base) z, rest).
Proof.
  intros base z rest B H HR.
  assert (F : Forall (fun r => number_rune r = true) (radixString (precision base) z)).
  { destruct (C175_text base z B H) as (t & (ds & -> & R & _) & E). rewrite E.
    apply Forall_app. split; [destruct B as [-> | ->]; repeat constructor|]. apply Forall_app. split; [destruct (z <? 0); repeat constructor|].
    apply (glyphs_plain base ds); [destruct B; lia|exact R]. }
  induction F as [|r w Hr F IH].
  - destruct rest as [|r rest]; [reflexivity|]. cbn. rewrite HR. reflexivity.
  - cbn [app ScanNumber]. rewrite Hr, IH. reflexivity.
Qed.

(* the text determines the number *)
Lemma numeral_value base t : base <= 36 -> forall m n, numeral base m t -> numeral base n t -> m = n.
Proof.
  intros B m n (ds & E1 & R1 & V1 & _) (es & E2 & R2 & V2 & _).
  pose proof (glyphs_value base ds 0 B R1) as G1. pose proof (glyphs_value base es 0 B R2) as G2. rewrite <- E1 in G1. rewrite <- E2 in G2.
  fold (horner base ds) in G1. fold (horner base es) in G2. congruence.
Qed.
Theorem C175_distinct : forall base y z, small base -> - 2 ^ 63 <= y < 2 ^ 63 -> - 2 ^ 63 <= z < 2 ^ 63 ->
  radixString (precision base) y = radixString (precision base) z -> y = z.
Proof.
  intros base y z B Hy Hz E. destruct (C175_text base y B Hy) as (t & N & Ey). destruct (C175_text base z B Hz) as (u & M & Ez).
  rewrite Ey, Ez in E. apply app_inv_head in E.
  assert (S : forall n w v, numeral base n w -> w = r_macron :: v -> False).
  { intros n w v (ds & -> & R & _) Q. destruct ds as [|d ds]; [discriminate|]. inversion R; subst. cbn in Q. inversion Q as [[Q1 Q2]]. apply (glyph_not_sign d ltac:(destruct B; lia)). exact Q1. }
  destruct (y <? 0) eqn:Qy, (z <? 0) eqn:Qz; cbn [app] in E.
  - inversion E; subst u. pose proof (numeral_value base t ltac:(destruct B; lia) _ _ N M). lia.
  - exfalso. exact (S _ _ _ M (eq_sym E)).
  - exfalso. exact (S _ _ _ N E).
  - subst u. pose proof (numeral_value base t ltac:(destruct B; lia) _ _ N M). lia.
Qed.

(* Arrays of integers that are not negative: the text for ¯8 or ¯16 is read back by ⍎ (up to leading
   axes of length 1, as for ¯1), like C112_table. *)
Theorem C175_array : forall (B : Type) C (oshow : B -> text) (oparse : text -> option B) quote base pad (v : arr (elt B)), small base ->
  nonempty v -> Forall (fun e => match e with EInt z => 0 <= z < 2 ^ 63 | _ => False end) (elems v) ->
  ParseArray C (towerParse oparse) (@EString B) (tableArray (radixElt oshow quote (precision base)) pad v)
  = Ok (Cell (mkArr (no_leading_ones (dims v)) (elems v))).
Proof.
  intros B C oshow oparse quote base pad v SB NE F. apply C112_table; [exact NE|]. unfold readable_elems. eapply Forall_impl; [|exact F].
  intros e He. cbv beta in He. destruct e as [b|z|s|o]; try contradiction. left. cbn [radixElt].
  destruct (C175_text base z SB ltac:(lia)) as (t & N & E).
  split; [rewrite E; destruct SB as [-> | ->]; discriminate|]. split.
  - pose proof (C175_token base z [] SB ltac:(lia) I) as T. rewrite app_nil_r in T.
    assert (A : forall s u, ScanNumber s = (u, []) -> Forall (fun r => number_rune r = true) s).
    { induction s as [|r s IH]; intros u Q; [constructor|]. cbn in Q. destruct (number_rune r) eqn:Qr; [|discriminate].
      destruct (ScanNumber s) as [w rest] eqn:Qs. inversion Q; subst. constructor; [exact Qr|eapply IH; reflexivity]. }
    exact (A _ _ T).
  - unfold towerParse. replace (list_eqb (radixString (precision base) z) [49; 98]) with false.
    2:{ rewrite E. destruct SB as [-> | ->]; reflexivity. }
    replace (list_eqb (radixString (precision base) z) [48; 98]) with false.
    2:{ rewrite E. replace (z <? 0) with false by lia. destruct N as (ds & -> & R & _). destruct SB as [-> | ->]; [|reflexivity].
        destruct ds as [|d ds]; [reflexivity|]. inversion R; subst. cbn. unfold glyph. replace (d <? 10) with true by lia. replace (48 + d =? 98) with false by lia. reflexivity. }
    rewrite C175_read by (assumption || lia). reflexivity.
Qed.

(* A number written with a leading zero is read in octal, not in decimal; with a digit 8 or 9 it is no integer. *)
Theorem C175_leading_zero : forall ds, ds <> [] -> Forall (fun d => 0 <= d < 10) ds ->
  (Forall (fun d => d < 8) ds -> horner 8 ds < 2 ^ 63 -> ParseInt (48 :: map glyph ds) = Some (horner 8 ds))
  /\ (Exists (fun d => 8 <= d) ds -> ParseInt (48 :: map glyph ds) = None).
Proof.
  intros ds NE R. destruct ds as [|d ds]; [congruence|]. set (w := map glyph (d :: ds)).
  assert (P2 : macron_to_minus w = w) by (apply (glyphs_plain 10); [lia|exact R]).
  assert (P : ParseInt (48 :: w) = match digits_value 8 0 w with None => None | Some z => if (- 9223372036854775808 <=? z) && (z <=? 9223372036854775807) then Some z else None end).
  { unfold ParseInt. change (macron_to_minus (48 :: w)) with (48 :: macron_to_minus w). rewrite P2. unfold w. cbn [map].
    assert (D : 0 <= d < 10) by (inversion R; assumption). apply parse_octal_word; unfold glyph; replace (d <? 10) with true by lia; lia. }
  rewrite P. unfold w. clear P P2 w. split.
  - intros H L. rewrite glyphs_value; [|lia|]. 2:{ rewrite Forall_forall in *. intros x Hx. specialize (R x Hx). specialize (H x Hx). cbv beta in *. lia. }
    fold (horner 8 (d :: ds)). assert (Z0 : 0 <= horner 8 (d :: ds)).
    { clear L NE H. induction R as [|x l Hx R IH]; [unfold horner; cbn; lia|]. rewrite horner_cons. pose proof (Z.pow_nonneg 8 (zlen l) ltac:(lia)). nia. }
    replace ((- 9223372036854775808 <=? horner 8 (d :: ds)) && (horner 8 (d :: ds) <=? 9223372036854775807)) with true by lia. reflexivity.
  - intros H. assert (G : forall l n, Forall (fun d => 0 <= d < 10) l -> Exists (fun d => 8 <= d) l -> digits_value 8 n (map glyph l) = None).
    { induction l as [|x l IH]; intros n Rl Hl; [inversion Hl|]. inversion Rl; subst. cbn [map digits_value].
      destruct (Z_lt_dec x 8) as [Q|Q].
      - rewrite glyph_digit by lia. apply IH; [assumption|]. inversion Hl; subst; [lia|assumption].
      - unfold digit_value, glyph, digit, rune_range. replace (x <? 10) with true by lia. replace ((48 <=? 48 + x) && (48 + x <=? 57)) with true by lia.
        replace (48 + x - 48 <? 8) with false by lia. reflexivity. }
    rewrite G; [reflexivity|exact R|exact H].
Qed.

(* 0x7FF, 0¯17, 010 *)
Example C175_example :
  radixString (-16) 2047 = [48; 120; 55; 70; 70] /\ ParseInt [48; 120; 55; 70; 70] = Some 2047
  /\ radixString (-8) (-15) = [48; 175; 49; 55] /\ ParseInt [48; 175; 49; 55] = None
  /\ ParseInt (48 :: map glyph [1; 0]) = Some 8 /\ ParseInt (48 :: map glyph [1; 9]) = None
  /\ exread (tableArray (radixElt (fun e : Empty_set => match e with end) (fun s => s) (-16)) (fun _ => 0%nat) (mkArr [2; 1] (ints [255; 16])))
     = Ok (Cell (mkArr [2; 1] (ints [255; 16])))
  /\ small 8 /\ small 16.
Proof. repeat split; unfold small; auto. Qed.
(* negative integers in an array: an error *)
Theorem C175_negative_array_refuted : forall z, - 2 ^ 63 <= z < 0 -> forall base, small base ->
  exread (tableArray (radixElt (fun e : Empty_set => match e with end) (fun s => s) (precision base)) (fun _ => 0%nat) (mkArr [1] (ints [z]))) = Err.
Proof.
  intros z H base B.
  assert (T : tableArray (radixElt (fun e : Empty_set => match e with end) (fun s => s) (precision base)) (fun _ => 0%nat) (mkArr [1] (ints [z])) = radixString (precision base) z) by reflexivity.
  rewrite T. unfold exread, ParseArray, ScanRankArray.
  pose proof (C175_token base z [] B ltac:(lia) I) as S. rewrite app_nil_r in S.
  pose proof (C175_negative_refuted base z B H) as P.
  destruct (C175_text base z B ltac:(lia)) as (t & N & E). replace (z <? 0) with true in E by lia.
  assert (HW : exists w, radixString (precision base) z = 48 :: w /\ list_eqb (48 :: w) [49; 98] = false /\ list_eqb (48 :: w) [48; 98] = false).
  { rewrite E. destruct B as [-> | ->]; eexists; (split; [reflexivity|]); split; reflexivity. }
  destruct HW as (w & W & W1 & W2). rewrite W in *. cbn [length scan_loop].
  change (closing 48) with false. cbn iota. replace (skipped exC 48) with false by reflexivity. cbn iota. change (48 =? r_dquote) with false. cbn iota.
  rewrite S. unfold exnum, towerParse. rewrite W1, W2, P. reflexivity.
Qed.
Print Assumptions C175_text.
Print Assumptions C175_read.
Print Assumptions C175_negative_refuted.
Print Assumptions C175_token.
Print Assumptions C175_distinct.
Print Assumptions C175_array.
Print Assumptions C175_leading_zero.
Print Assumptions C175_negative_array_refuted.
