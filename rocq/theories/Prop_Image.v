(* Prop_Image.v -- C127 and C128: images. *)
From Verif Require Import Base M_Array S_Array P_Array M_Image P_Image.
From Coq Require Import List Lia ZArith.
Import ListNotations.
Open Scope Z_scope.
Ltac Zify.zify_post_hook ::= Z.to_euclidean_division_equations.

(* a color without transparency 0xRRGGBB; the four bytes of 0xAARRGGBB *)
Definition rgb (v : Z) : Prop := 0 <= v < 2 ^ 24.
Definition argb (a r g b : Z) : Z := a * 2 ^ 24 + r * 2 ^ 16 + g * 2 ^ 8 + b.

Lemma value_argb a r g b : byte a -> byte r -> byte g -> byte b -> colorValue (toColor (argb a r g b)) = argb 0 (Z.lor a r) g b.
Proof.
  intros A R G B. rewrite toColor_eq. unfold argb, byte in *. change (2 ^ 24) with 16777216. change (2 ^ 16) with 65536. change (2 ^ 8) with 256.
  set (v := a * 16777216 + r * 65536 + g * 256 + b).
  replace (v / 65536 mod 256) with r by (unfold v; lia). replace (v / 256 mod 256) with g by (unfold v; lia).
  replace (v mod 256) with b by (unfold v; lia). replace (v / 16777216 mod 256) with a by (unfold v; lia).
  rewrite colorValue_eq by (unfold byte; lia). replace (255 - (255 - a)) with a by lia. lia.
Qed.
Lemma value_rgb v : rgb v -> colorValue (toColor v) = v.
Proof.
  unfold rgb. change (2 ^ 24) with 16777216. intros H.
  assert (E : v = argb 0 (v / 65536) (v / 256 mod 256) (v mod 256)).
  { unfold argb. change (2 ^ 24) with 16777216. change (2 ^ 16) with 65536. change (2 ^ 8) with 256. lia. }
  rewrite E at 1. rewrite value_argb by (unfold byte; lia). rewrite Z.lor_0_l. symmetry. exact E.
Qed.

(* `img⌶M for a matrix of colors: the image shows the values of M, row by row. *)
Theorem C127_shows (ia : arr Z) h w : wf ia -> dims ia = [h; w] -> Forall rgb (elems ia) ->
  exists m, ints2image ia = Some m /\ toIntArray m = ia.
Proof.
  intros (_ & Hnn & L) E H. destruct ia as [ds vs]. cbn [dims elems] in *. subst ds.
  inversion Hnn as [|? ? Hh H1]; subst. inversion H1 as [|? ? Hw _]; subst. cbn [size] in L. rewrite Z.mul_1_r in L.
  exists (mkImage h w (map toColor vs)). split; [apply ints2image_pix; assumption|].
  assert (P : pixels (mkImage h w (map toColor vs))) by (split; [|split]; cbn; rewrite ?zlen_map; assumption).
  unfold toIntArray at 1. f_equal. change (elems (toIntArray (mkImage h w (map toColor vs))) = vs). rewrite toIntArray_pix by exact P.
  cbn [im_pix]. rewrite map_map. rewrite <- (map_id vs) at 2. apply map_ext_in. intros v I. apply value_rgb. exact (proj1 (Forall_forall _ _) H v I).
Qed.
(* Only matrices can be converted. *)
Theorem C127_rank (ia : arr Z) : ints2image ia <> None <-> zlen (dims ia) = 2.
Proof.
  unfold ints2image. destruct (dims ia) as [|h [|w [|x r]]]; cbv [zlen length]; [split; [congruence|lia]..| |].
  - split; [reflexivity|discriminate].
  - split; [congruence|lia].
Qed.
(* Transparency is lost: it is mixed into the red. *)
Theorem C127_transparency_refuted a r g b : byte a -> byte r -> byte g -> byte b ->
  exists m, ints2image (mkArr [1; 1] [argb a r g b]) = Some m /\ elems (toIntArray m) = [argb 0 (Z.lor a r) g b].
Proof.
  intros A R G B. eexists. split; [apply ints2image_pix; try lia; reflexivity|].
  rewrite toIntArray_pix by (split; [|split]; cbn; lia). cbn [im_pix map]. rewrite value_argb by assumption. reflexivity.
Qed.
Print Assumptions C127_shows.
Print Assumptions C127_transparency_refuted.

(* images that can be made *)
Inductive made : image -> Prop :=
| made_new ia m : wf ia -> ints2image ia = Some m -> made m
| made_set m k v m' : made m -> imgSet m k v = Ok m' -> made m'.
Lemma made_pixels m : made m -> pixels m.
Proof.
  induction 1 as [ia m (_ & Hnn & L) E|m k v m' _ (Hh & Hw & L) E].
  - destruct ia as [ds vs]. cbn [dims elems] in *. unfold ints2image in E. cbn [dims elems] in E. destruct ds as [|h [|w [|x r]]]; try discriminate E.
    inversion Hnn as [|? ? Hh H1]; subst. inversion H1 as [|? ? Hw _]; subst. cbn [size] in L. rewrite Z.mul_1_r in L.
    pose proof (ints2image_pix h w vs Hh Hw L) as E1. unfold ints2image in E1. cbn [dims elems] in E1. rewrite E1 in E. injection E as <-.
    split; [|split]; cbn; rewrite ?zlen_map; assumption.
  - unfold imgSet in E. destruct (im_w m =? 0); [discriminate|]. injection E as <-. unfold rgba_set.
    destruct (in_rect m _ _); split; [|split| |split]; cbn [im_h im_w im_pix]; rewrite ?zlen_zupd; assumption.
Qed.
(* I[i;j]←v changes this pixel and no other. *)
Theorem C128_write m i j v : made m -> 0 <= i < im_h m -> 0 <= j < im_w m -> rgb v ->
  exists m', imgSet m (i * im_w m + j) v = Ok m' /\ dims (toIntArray m') = dims (toIntArray m) /\
             elems (toIntArray m') = zupd (elems (toIntArray m)) (i * im_w m + j) v.
Proof.
  intros M I J V. apply made_pixels in M. pose proof M as (Hh & Hw & L). unfold imgSet. replace (im_w m =? 0) with false by lia.
  replace (Z.quot (i * im_w m + j) (im_w m)) with i by (rewrite Z.quot_div_nonneg, Z.div_add_l, Z.div_small by nia; lia). replace (i * im_w m + j - i * im_w m) with j by lia.
  eexists. split; [reflexivity|].
  unfold rgba_set, in_rect. replace ((0 <=? j) && (j <? im_w m) && (0 <=? i) && (i <? im_h m))%bool with true by (symmetry; rewrite !Bool.andb_true_iff; lia).
  split; [reflexivity|]. rewrite !toIntArray_pix; [|exact M|split; [|split]; cbn [im_h im_w im_pix]; rewrite ?zlen_zupd; assumption].
  cbn [im_pix]. apply znth_ext; [rewrite !zlen_map, !zlen_zupd, zlen_map; reflexivity|]. rewrite zlen_map, zlen_zupd. intros k Hk.
  destruct (Z.eq_dec k (i * im_w m + j)) as [->|N].
  - assert (K : 0 <= i * im_w m + j < zlen (im_pix m)) by (rewrite L; clear - I J; nia). rewrite znth_map, !znth_zupd_same by (rewrite ?zlen_map; exact K). cbn [option_map]. rewrite value_rgb by exact V. reflexivity.
  - rewrite znth_map, !znth_zupd_other, znth_map by congruence. reflexivity.
Qed.
(* I[i;j] reads the pixel of row j and column i; outside of the image there is pure red. *)
Theorem C128_read_partial m i j : made m -> 0 <= i < im_h m -> 0 <= j < im_w m ->
  imgAt m (i * im_w m + j) = Ok (if (j <? im_h m) && (i <? im_w m) then
                                   match elem (toIntArray m) [j; i] with Some v => v | None => 0 end
                                 else 0xFF0000).
Proof.
  intros M I J. apply made_pixels in M. pose proof M as (Hh & Hw & L). unfold imgAt.
  assert (E : exists ic, NewIdxConverter [im_h m; im_w m] = Ok ic /\ ic_indexes ic (i * im_w m + j) = Ok [i; j]).
  { destruct (ic_indexes_spec [im_h m; im_w m] (i * im_w m + j)) as (idx & I1 & I2 & I3); [repeat constructor; assumption|cbn [size]; nia|].
    eexists. split; [reflexivity|]. rewrite I1. f_equal. inversion I2 as [|? a ? is Ha I4]; subst. inversion I4 as [|? b ? is' Hb I5]; subst. inversion I5; subst.
    cbn [pos size] in I3. assert (a = i) as -> by (clear - I3 I J Ha Hb; destruct (Z.lt_trichotomy a i) as [X|[X|X]]; [exfalso; nia|exact X|exfalso; nia]). f_equal. f_equal. lia. }
  destruct E as (ic & E1 & E2). rewrite E1. cbn [obind]. rewrite E2. cbn [obind]. f_equal.
  destruct (Z.ltb_spec j (im_h m)) as [A|A]; [destruct (Z.ltb_spec i (im_w m)) as [B|B]|].
  - cbn [andb]. destruct (rgba_at_in m i j M ltac:(lia) ltac:(lia)) as (c & Z1 & Z2). rewrite Z2.
    unfold elem. rewrite toIntArray_pix by exact M. unfold toIntArray. cbn [dims pos size].
    replace (j * (im_w m * 1) + (i * 1 + 0)) with (j * im_w m + i) by lia. rewrite znth_map, Z1. reflexivity.
  - cbn [andb]. rewrite rgba_at_out by lia. reflexivity.
  - cbn [andb]. rewrite rgba_at_out by lia. reflexivity.
Qed.
(* The full claim, that I[i;j] is the pixel that is shown, and that was written, is false. *)
Theorem C128_read_refuted : exists m m', made m /\ imgSet m 1 7 = Ok m' /\ toIntArray m' = mkArr [2; 2] [0; 7; 0; 0] /\ imgAt m' 1 = Ok 0 /\ imgAt m' 2 = Ok 7.
Proof.
  exists (mkImage 2 2 (map toColor [0; 0; 0; 0])), (mkImage 2 2 (map toColor [0; 7; 0; 0])).
  split; [|vm_compute; repeat split].
  apply (made_new (mkArr [2; 2] [0; 0; 0; 0])); [|reflexivity]. split; [discriminate|split; [repeat constructor; lia|reflexivity]].
Qed.
Print Assumptions C128_write.
Print Assumptions C128_read_partial.

Example C127_example : exists m, ints2image (mkArr [2; 3] [0xFF0000; 0xFF00; 0xFF; 1; 0; 0xFFFFFF]) = Some m
  /\ elems (toIntArray m) = [0xFF0000; 0xFF00; 0xFF; 1; 0; 0xFFFFFF] /\ im_w m = 3
  /\ imgAt m 1 = Ok 1 /\ imgAt m 2 = Ok 0xFF0000 /\ rgb 0xFFFFFF.
Proof. eexists. split; [reflexivity|]. vm_compute. repeat split; congruence. Qed.
Example C128_example : exists m m', made m /\ im_h m = 2 /\ im_w m = 3 /\ imgSet m 5 9 = Ok m' /\ elems (toIntArray m') = [0; 0; 0; 0; 0; 9].
Proof.
  exists (mkImage 2 3 (map toColor [0; 0; 0; 0; 0; 0])), (mkImage 2 3 (map toColor [0; 0; 0; 0; 0; 9])).
  split; [|vm_compute; repeat split]. apply (made_new (mkArr [2; 3] [0; 0; 0; 0; 0; 0])); [|reflexivity]. split; [discriminate|split; [repeat constructor; lia|reflexivity]].
Qed.
