(* P_Image.v -- proofs about images. *)
From Verif Require Import Base M_Array S_Array P_Array M_Image.
From Coq Require Import List Lia ZArith.
Import ListNotations.
Open Scope Z_scope.
Ltac Zify.zify_post_hook ::= Z.to_euclidean_division_equations.

(* ---------- bits ---------- *)
Lemma lor_add a b n : 0 <= n -> 0 <= b < 2 ^ n -> Z.lor (a * 2 ^ n) b = a * 2 ^ n + b.
Proof.
  intros Hn Hb. rewrite <- Z.shiftl_mul_pow2 by exact Hn.
  assert (E : Z.land (Z.shiftl a n) b = 0).
  { apply Z.bits_inj'. intros k Hk. rewrite Z.land_spec, Z.bits_0, Z.shiftl_spec by exact Hk.
    destruct (Z.lt_ge_cases k n) as [K|K]; [rewrite Z.testbit_neg_r by lia; reflexivity|].
    replace (Z.testbit b k) with false; [apply Bool.andb_false_r|].
    symmetry. rewrite <- (Z.mod_small b (2 ^ n)) by exact Hb. apply Z.mod_pow2_bits_high. lia. }
  rewrite Z.add_nocarry_lxor by exact E. symmetry. apply Z.lxor_lor. exact E.
Qed.
Lemma land_byte u n : 0 <= n -> Z.shiftr (Z.land u (255 * 2 ^ n)) n = (u / 2 ^ n) mod 256.
Proof.
  intros Hn. rewrite Z.shiftr_land, <- Z.shiftl_mul_pow2, Z.shiftr_shiftl_l, Z.sub_diag, Z.shiftl_0_r, Z.shiftr_div_pow2 by lia.
  change 255 with (Z.ones 8). rewrite Z.land_ones by lia. reflexivity.
Qed.
Lemma land_byte' x : Z.land x 0xFF00 = ((x / 256) mod 256) * 256.
Proof.
  replace ((x / 256) mod 256 * 256) with (Z.shiftl (Z.land (Z.shiftr x 8) (Z.ones 8)) 8) by (rewrite Z.shiftl_mul_pow2, Z.land_ones, Z.shiftr_div_pow2 by lia; reflexivity).
  change 0xFF00 with (Z.shiftl (Z.ones 8) 8).
  apply Z.bits_inj'. intros k Hk. rewrite Z.land_spec, !Z.shiftl_spec by exact Hk.
  destruct (Z.lt_ge_cases k 8) as [K|K].
  - rewrite !(Z.testbit_neg_r _ (k - 8)) by lia. apply Bool.andb_false_r.
  - rewrite Z.land_spec, Z.shiftr_spec by lia. replace (k - 8 + 8) with k by lia. reflexivity.
Qed.
Definition byte (b : Z) : Prop := 0 <= b < 256.
Lemma wide_eq b : byte b -> wide b = 257 * b.
Proof. unfold byte. intros H. unfold wide. rewrite Z.shiftl_mul_pow2, Z.lor_comm, lor_add by lia. change (2 ^ 8) with 256. lia. Qed.
Lemma toColor_eq i : toColor i = mkColor (i / 2 ^ 16 mod 256) (i / 2 ^ 8 mod 256) (i mod 256) (255 - i / 2 ^ 24 mod 256).
Proof.
  unfold toColor, u8, u32. change 0xFF0000 with (255 * 2 ^ 16). change 0xFF00 with (255 * 2 ^ 8).
  rewrite !land_byte by lia. change 0xFF with (Z.ones 8). rewrite Z.land_ones, Z.shiftr_div_pow2 by lia. change (2 ^ 8) with 256.
  change (2 ^ 16) with 65536. change (2 ^ 24) with 16777216. change (2 ^ 32) with 4294967296.
  f_equal; lia.
Qed.
Lemma toColor_bytes i : let c := toColor i in byte (c_r c) /\ byte (c_g c) /\ byte (c_b c) /\ byte (c_a c).
Proof. rewrite toColor_eq. cbn [c_r c_g c_b c_a]. unfold byte. change (2 ^ 8) with 256. change (2 ^ 16) with 65536. change (2 ^ 24) with 16777216. lia. Qed.
Lemma lor_byte a b : byte a -> byte b -> byte (Z.lor a b).
Proof.
  unfold byte. intros A B. split; [apply Z.lor_nonneg; lia|].
  destruct (Z.eq_dec (Z.lor a b) 0) as [->|N]; [lia|]. assert (0 < Z.lor a b) by (pose proof (proj2 (Z.lor_nonneg a b) ltac:(lia)); lia).
  change 256 with (2 ^ 8). apply Z.log2_lt_pow2; [lia|]. rewrite Z.log2_lor by lia.
  assert (forall x, 0 <= x < 256 -> Z.log2 x < 8). { intros x Hx. destruct (Z.eq_dec x 0) as [->|]; [reflexivity|]. apply Z.log2_lt_pow2; [lia|]. change (2 ^ 8) with 256. lia. }
  apply Z.max_lub_lt; auto.
Qed.
Lemma colorValue_eq r g b a : byte r -> byte g -> byte b -> byte a ->
  colorValue (mkColor r g b a) = (Z.lor (255 - a) r) * 65536 + g * 256 + b.
Proof.
  intros R G B A. unfold colorValue. cbn [c_r c_g c_b c_a]. rewrite !wide_eq by assumption.
  rewrite !land_byte', !Z.shiftr_div_pow2, !Z.shiftl_mul_pow2 by lia. change (2 ^ 8) with 256.
  assert (RR : forall x, byte x -> 257 * x / 256 = x) by (unfold byte; intros; lia).
  rewrite !RR by assumption. rewrite !Z.mod_small by assumption.
  replace (r * 256 * 256) with (r * 2 ^ 16) by (change (2 ^ 16) with 65536; lia).
  rewrite <- !(Z.shiftl_mul_pow2 _ 16) by lia. rewrite <- Z.shiftl_lor. rewrite Z.shiftl_mul_pow2 by lia.
  pose proof (lor_byte (255 - a) r ltac:(unfold byte in *; lia) R) as L. set (q := Z.lor (255 - a) r) in *. clearbody q. unfold byte in *.
  rewrite (lor_add q (g * 256) 16) by (change (2 ^ 16) with 65536; lia).
  replace (q * 2 ^ 16 + g * 256) with ((q * 256 + g) * 2 ^ 8) by (change (2 ^ 16) with 65536; change (2 ^ 8) with 256; lia).
  rewrite lor_add by (change (2 ^ 8) with 256; lia). unfold u32. change (2 ^ 8) with 256. change (2 ^ 32) with 4294967296. lia.
Qed.

(* ---------- pixels ---------- *)
Definition pixels (m : image) : Prop := 0 <= im_h m /\ 0 <= im_w m /\ zlen (im_pix m) = im_h m * im_w m.
Lemma rgba_at_in m x y : pixels m -> 0 <= x < im_w m -> 0 <= y < im_h m ->
  exists c, znth (im_pix m) (y * im_w m + x) = Some c /\ rgba_at m x y = c.
Proof.
  intros (Hh & Hw & L) X Y. unfold rgba_at, in_rect.
  replace ((0 <=? x) && (x <? im_w m) && (0 <=? y) && (y <? im_h m))%bool with true by (symmetry; rewrite !Bool.andb_true_iff; lia).
  destruct (znth_in_range (im_pix m) (y * im_w m + x)) as (c & E); [nia|]. exists c. rewrite E. split; reflexivity.
Qed.
Lemma rgba_at_out m x y : ~ (0 <= x < im_w m /\ 0 <= y < im_h m) -> rgba_at m x y = zero_color.
Proof.
  intros H. unfold rgba_at, in_rect.
  replace ((0 <=? x) && (x <? im_w m) && (0 <=? y) && (y <? im_h m))%bool with false; [reflexivity|]. symmetry. rewrite !Bool.andb_false_iff. lia.
Qed.
Lemma toIntArray_pix m : pixels m -> elems (toIntArray m) = map colorValue (im_pix m).
Proof.
  intros P. pose proof P as (Hh & Hw & L). unfold toIntArray. cbn [elems].
  assert (LR : forall y, zlen (map (fun x => colorValue (rgba_at m x y)) (zseq (im_w m))) = im_w m) by (intros y; rewrite zlen_map, zlen_zseq; lia).
  assert (LF : zlen (flat_map (fun y => map (fun x => colorValue (rgba_at m x y)) (zseq (im_w m))) (zseq (im_h m))) = im_h m * im_w m).
  { unfold zlen. rewrite (flat_map_length_const _ _ (Z.to_nat (im_w m))); [pose proof (zlen_zseq (im_h m)); unfold zlen in *; nia|]. intros y. specialize (LR y). unfold zlen in LR. lia. }
  apply znth_ext; [rewrite zlen_map; lia|]. rewrite LF. intros k Hk.
  destruct (Z.eq_dec (im_w m) 0) as [W0|W0]; [nia|].
  set (y := k / im_w m). set (x := k mod im_w m). assert (Ek : k = y * im_w m + x) by (unfold x, y; rewrite (Z.div_mod k (im_w m)) at 1; lia).
  assert (X : 0 <= x < im_w m) by (apply Z.mod_pos_bound; lia). assert (Y : 0 <= y < im_h m) by nia.
  rewrite Ek, (znth_flat_map_const _ _ (im_w m)) by (assumption || exact LR).
  rewrite !znth_map, znth_zseq by lia. cbn [option_map]. destruct (rgba_at_in m x y P X Y) as (c & E1 & E2). rewrite E1, E2. reflexivity.
Qed.
Lemma zupd_mid {A} (l r : list A) x y : zupd (l ++ x :: r) (zlen l) y = l ++ y :: r.
Proof.
  unfold zupd, zlen. replace (Z.of_nat (length l) <? 0) with false by lia. rewrite Nat2Z.id.
  induction l as [|z l IH]; cbn [app length upd_nat]; [reflexivity|]. rewrite IH. reflexivity.
Qed.
Lemma fill_row_pix n : forall m x y vs done rest, im_pix m = done ++ rest -> zlen done = y * im_w m + x -> 0 <= x -> x + Z.of_nat n = im_w m -> 0 <= y < im_h m ->
  (n <= length vs)%nat -> (n <= length rest)%nat ->
  fill_row m x y vs n = (mkImage (im_h m) (im_w m) (done ++ map toColor (firstn n vs) ++ skipn n rest), skipn n vs).
Proof.
  induction n as [|n IH]; intros m x y vs done rest E D X W Y V R.
  - cbn [fill_row firstn skipn map app]. rewrite <- E. destruct m; reflexivity.
  - destruct vs as [|c vs]; [cbn in V; lia|]. destruct rest as [|r rest]; [cbn in R; lia|]. cbn [fill_row].
    assert (ES : rgba_set m x y (toColor c) = mkImage (im_h m) (im_w m) ((done ++ [toColor c]) ++ rest)).
    { unfold rgba_set, in_rect. replace ((0 <=? x) && (x <? im_w m) && (0 <=? y) && (y <? im_h m))%bool with true by (symmetry; rewrite !Bool.andb_true_iff; lia).
      f_equal. rewrite E, <- D. rewrite zupd_mid. rewrite <- app_assoc. reflexivity. }
    rewrite ES. rewrite (IH _ (x + 1) y vs (done ++ [toColor c]) rest); cbn [im_h im_w im_pix]; try reflexivity; try lia.
    + rewrite <- app_assoc. reflexivity.
    + rewrite zlen_app, D. change (zlen [toColor c]) with 1. lia.
    + cbn in V; lia.
    + cbn in R; lia.
Qed.
Lemma fill_rows_pix n : forall m y vs done rest, im_pix m = done ++ rest -> zlen done = y * im_w m -> 0 <= im_w m -> 0 <= y -> y + Z.of_nat n = im_h m ->
  length vs = (n * Z.to_nat (im_w m))%nat -> length rest = length vs ->
  fill_rows m y vs n = mkImage (im_h m) (im_w m) (done ++ map toColor vs).
Proof.
  induction n as [|n IH]; intros m y vs done rest E D W Y H V R.
  - destruct vs; [|cbn in V; lia]. destruct rest; [|cbn in R; lia]. cbn [fill_rows map]. rewrite <- E. destruct m; reflexivity.
  - cbn [fill_rows]. rewrite (fill_row_pix _ m 0 y vs done rest) by (try assumption; nia).
    rewrite (IH _ (y + 1) _ (done ++ map toColor (firstn (Z.to_nat (im_w m)) vs)) (skipn (Z.to_nat (im_w m)) rest)); cbn [im_h im_w im_pix].
    + rewrite <- app_assoc, <- map_app, firstn_skipn. reflexivity.
    + rewrite <- app_assoc. reflexivity.
    + rewrite zlen_app, D, zlen_map. unfold zlen. rewrite firstn_length_le by nia. lia.
    + exact W.
    + lia.
    + lia.
    + rewrite skipn_length. nia.
    + rewrite !skipn_length. lia.
Qed.
Lemma ints2image_pix h w vs : 0 <= h -> 0 <= w -> zlen vs = h * w ->
  ints2image (mkArr [h; w] vs) = Some (mkImage h w (map toColor vs)).
Proof.
  intros Hh Hw L. unfold ints2image. cbn [dims elems]. f_equal.
  rewrite (fill_rows_pix (Z.to_nat h) _ 0 vs [] (repeat zero_color (Z.to_nat (h * w)))); cbn [im_h im_w im_pix app]; try reflexivity; try lia.
  - unfold zlen in L. nia.
  - rewrite repeat_length. unfold zlen in L. lia.
Qed.
