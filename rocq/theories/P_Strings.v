(* P_Strings.v -- lemmas on splitting, joining and UTF-8. *)
From Verif Require Import Base M_Array M_Scan M_Strings S_Strings.
From Coq Require Import Lia.

(* ---------- Join ---------- *)
Lemma Join_joined : forall sep v s, Join v sep = s <-> joined sep v s.
Proof.
  intros sep v s. split.
  - intros <-. induction v as [|x [|y v] IH]; [constructor|constructor|]. 
    change (Join (x :: y :: v) sep) with (x ++ sep ++ Join (y :: v) sep). constructor. exact IH.
  - induction 1 as [| |x y v s H IH]; [reflexivity|reflexivity|].
    change (Join (x :: y :: v) sep) with (x ++ sep ++ Join (y :: v) sep). rewrite IH. reflexivity.
Qed.
Lemma Join_concat : forall v, Join v [] = concat v.
Proof.
  induction v as [|x [|y v] IH]; [reflexivity|cbn; rewrite app_nil_r; reflexivity|].
  change (Join (x :: y :: v) []) with (x ++ Join (y :: v) []). rewrite IH. reflexivity.
Qed.
(* ---------- prefixes and the first occurrence ---------- *)
Lemma HasPrefix_iff : forall p s, HasPrefix s p = true <-> exists y, s = p ++ y.
Proof.
  induction p as [|b p IH]; intros s; cbn [HasPrefix app].
  - split; [intros _; exists s; reflexivity|intros _; destruct s; reflexivity].
  - destruct s as [|c s]; [split; [discriminate|intros (y & E); discriminate]|].
    cbn [HasPrefix]. rewrite Bool.andb_true_iff, IH, Z.eqb_eq. split.
    + intros (-> & y & ->). exists y. reflexivity.
    + intros (y & E). injection E as -> ->. split; [reflexivity|exists y; reflexivity].
Qed.
Lemma Index_unfold : forall s sep, Index s sep =
  if HasPrefix s sep then Some ([], s)
  else match s with [] => None | b :: s' => match Index s' sep with None => None | Some (x, y) => Some (b :: x, y) end end.
Proof. intros [|b s] sep; reflexivity. Qed.
Lemma Index_none : forall s sep, Index s sep = None <-> ~ occurs sep s.
Proof.
  induction s as [|b s IH]; intros sep; rewrite Index_unfold; destruct (HasPrefix _ sep) eqn:E.
  - apply HasPrefix_iff in E. destruct E as (y & E). split; [discriminate|]. intros H. exfalso. apply H. exists [], y. exact E.
  - split; [|reflexivity]. intros _ (x & y & O). destruct x; [|discriminate].
    assert (HasPrefix [] sep = true) by (apply HasPrefix_iff; exists y; exact O). congruence.
  - apply HasPrefix_iff in E. destruct E as (y & E). split; [discriminate|]. intros H. exfalso. apply H. exists [], y. exact E.
  - split.
    + destruct (Index s sep) as [[x y]|] eqn:I; [discriminate|]. intros _ (x & y & O). destruct x as [|c x].
      * assert (HasPrefix (b :: s) sep = true) by (apply HasPrefix_iff; exists y; exact O). congruence.
      * injection O as -> O. apply (proj1 (IH sep) I). exists x, y. exact O.
    + intros H. assert (N : ~ occurs sep s).
      { intros (x & y & O). apply H. exists (b :: x), y. rewrite O. reflexivity. }
      rewrite (proj2 (IH sep) N). reflexivity.
Qed.
Lemma Index_some : forall s sep x y, Index s sep = Some (x, y) ->
  s = x ++ y /\ (exists z, y = sep ++ z) /\ first_at_end sep x.
Proof.
  induction s as [|b s IH]; intros sep x y; rewrite Index_unfold; destruct (HasPrefix _ sep) eqn:E.
  - intros I. injection I as <- <-. apply HasPrefix_iff in E. split; [reflexivity|]. split; [exact E|].
    destruct E as (z & E). intros u w H. cbn in H. symmetry in E. apply app_eq_nil in E. destruct E as (-> & _).
    symmetry in H. apply app_eq_nil in H. destruct H as (_ & H). exact H.
  - discriminate.
  - intros I. injection I as <- <-. apply HasPrefix_iff in E. split; [reflexivity|]. split; [exact E|].
    intros u w H. cbn in H. assert (L : length sep = length (u ++ sep ++ w)) by (rewrite <- H; reflexivity).
    rewrite !app_length in L. destruct w; [reflexivity|cbn in L; lia].
  - destruct (Index s sep) as [[x' y']|] eqn:I; [|discriminate]. intros J. injection J as <- <-.
    destruct (IH sep x' y' I) as (E1 & (z & E2) & F). split; [cbn; rewrite E1; reflexivity|]. split; [exists z; exact E2|].
    intros u w H. destruct u as [|c u].
    + exfalso. assert (HasPrefix (b :: s) sep = true); [|congruence]. apply HasPrefix_iff.
      rewrite E1, E2. exists (w ++ z).
      transitivity (((b :: x') ++ sep) ++ z); [rewrite <- app_assoc; reflexivity|].
      rewrite H. cbn [app]. rewrite <- app_assoc. reflexivity.
    + injection H as -> H. exact (F u w H).
Qed.
Lemma Index_first : forall sep x z, first_at_end sep x -> Index (x ++ sep ++ z) sep = Some (x, sep ++ z).
Proof.
  intros sep. induction x as [|b x IH]; intros z F; rewrite Index_unfold.
  - cbn [app]. rewrite (proj2 (HasPrefix_iff _ _)) by (exists z; reflexivity). reflexivity.
  - destruct (HasPrefix ((b :: x) ++ sep ++ z) sep) eqn:E.
    + exfalso. apply HasPrefix_iff in E. destruct E as (y & E).
      (* sep is a prefix of (b::x)++sep *)
      assert (L : (length sep <= length ((b :: x) ++ sep))%nat) by (rewrite app_length; lia).
      assert (P : firstn (length sep) ((b :: x) ++ sep) = sep).
      { transitivity (firstn (length sep) (((b :: x) ++ sep) ++ z)).
        - rewrite (firstn_app (length sep) ((b :: x) ++ sep) z). replace (length sep - length ((b :: x) ++ sep))%nat with 0%nat by lia. cbn [firstn]. rewrite app_nil_r. reflexivity.
        - rewrite <- app_assoc, E, firstn_app, firstn_all, Nat.sub_diag. cbn [firstn]. apply app_nil_r. }
      pose proof (firstn_skipn (length sep) ((b :: x) ++ sep)) as Q. rewrite P in Q.
      specialize (F [] (skipn (length sep) ((b :: x) ++ sep)) (eq_sym Q)).
      rewrite F, app_nil_r in Q. assert (length sep = length ((b :: x) ++ sep)) by (rewrite <- Q; reflexivity).
      rewrite app_length in H. cbn in H. lia.
    + cbn [app]. rewrite IH; [reflexivity|]. intros u w H. apply (F (b :: u) w). cbn. rewrite H. reflexivity.
Qed.
Lemma Index_nocc : forall sep x, ~ occurs sep x -> Index x sep = None.
Proof. intros sep x. apply Index_none. Qed.

(* ---------- Split ---------- *)
Lemma splitN_spec : forall sep, sep <> [] -> forall n s, (length s <= n)%nat ->
  joined sep (splitN n s sep) s /\ cut_parts sep (splitN n s sep).
Proof.
  intros sep Hs. induction n as [|n IH]; intros s L.
  - destruct s; [|cbn in L; lia]. cbn. split; [constructor|]. constructor. intros (x & y & O).
    symmetry in O. apply app_eq_nil in O. destruct O as (_ & O). apply app_eq_nil in O. destruct O; congruence.
  - cbn [splitN]. destruct (Index s sep) as [[x y]|] eqn:I.
    + destruct (Index_some _ _ _ _ I) as (E & (z & ->) & F).
      rewrite skipn_app, skipn_all, Nat.sub_diag. cbn [skipn app].
      assert (Lz : (length z <= n)%nat).
      { rewrite E in L. rewrite !app_length in L. destruct sep; [congruence|cbn in L; lia]. }
      destruct (IH z Lz) as (J & C). destruct (splitN n z sep) as [|p ps] eqn:P; [inversion C|].
      split; [rewrite E; constructor; exact J|constructor; assumption].
    + split; [constructor|constructor]. apply Index_none. exact I.
Qed.
Lemma splitN_unique : forall sep, sep <> [] -> forall v s, joined sep v s -> cut_parts sep v ->
  forall n, (length s <= n)%nat -> splitN n s sep = v.
Proof.
  intros sep Hs v s J C. revert s J. induction C as [x H|x v F C IH]; intros s J n L.
  - inversion J; subst. destruct n as [|n]; [reflexivity|]. cbn [splitN]. rewrite Index_nocc by exact H. reflexivity.
  - inversion J as [|x' Ex Es|x' y v' s' J' Ex Es]; subst.
    + inversion C.
    + destruct n as [|n]; [rewrite !app_length in L; destruct sep; [congruence|cbn in L; lia]|].
      cbn [splitN]. rewrite Index_first by exact F. f_equal.
      rewrite skipn_app, skipn_all, Nat.sub_diag. cbn [skipn app].
      apply IH; [exact J'|]. rewrite !app_length in L. destruct sep; [congruence|cbn in L; lia].
Qed.
Lemma Split_iff : forall sep s v, sep <> [] -> Split s sep = v <-> joined sep v s /\ cut_parts sep v.
Proof.
  intros sep s v Hs. split.
  - intros <-. apply splitN_spec; [exact Hs|lia].
  - intros (J & C). unfold Split. eapply splitN_unique; [exact Hs|exact J|exact C|lia].
Qed.
Lemma cut_parts_one : forall c v, v <> [] -> Forall (fun x => ~ In c x) v -> cut_parts [c] v.
Proof.
  intros c v. induction v as [|x v IH]; intros N H; [congruence|]. inversion H as [|? ? Hx Hv]; subst.
  destruct v as [|y v].
  - constructor. intros (a & b & ->). apply Hx. rewrite !in_app_iff. right. left. left. reflexivity.
  - constructor; [|apply IH; [discriminate|exact Hv]].
    intros a b E. destruct b as [|d b]; [reflexivity|]. exfalso. apply Hx.
    assert (L : In c (removelast (x ++ [c]))).
    { rewrite E. rewrite app_assoc. rewrite removelast_app by discriminate. rewrite !in_app_iff. left. right. left. reflexivity. }
    rewrite removelast_last in L. exact L.
Qed.
Lemma cut_parts_one_inv : forall c v, cut_parts [c] v -> Forall (fun x => ~ In c x) v.
Proof.
  intros c v. induction 1 as [x H|x v F C IH].
  - constructor; [|constructor]. intros I. apply in_split in I. destruct I as (a & b & ->). apply H. exists a, b. reflexivity.
  - constructor; [|exact IH]. intros I. apply in_split in I. destruct I as (a & b & ->).
    specialize (F a (b ++ [c])). rewrite <- !app_assoc in F. cbn in F. specialize (F eq_refl).
    apply app_eq_nil in F. destruct F; discriminate.
Qed.

(* ---------- UTF-8 ---------- *)
Lemma encodeRune_rune : forall r, rune r -> encodeRune r =
  if r <? 128 then [r] else if r <? 2048 then [192 + r / 64; 128 + r mod 64]
  else if r <? 65536 then [224 + r / 4096; 128 + (r / 64) mod 64; 128 + r mod 64]
  else [240 + r / 262144; 128 + (r / 4096) mod 64; 128 + (r / 64) mod 64; 128 + r mod 64].
Proof.
  intros r H. unfold encodeRune, rune in *.
  replace ((r <? 0) || (1114111 <? r) || ((55296 <=? r) && (r <=? 57343))) with false by lia. reflexivity.
Qed.
Ltac ift := match goal with |- context [if ?b then _ else _] =>
  first [replace b with true by (unfold cont in *; Z.div_mod_to_equations; lia) |replace b with false by (unfold cont in *; Z.div_mod_to_equations; lia)] end.
Lemma decode_encode : forall r t, rune r -> decodeRune (encodeRune r ++ t) = Some (r, encodeRune r, t).
Proof.
  intros r t H. rewrite encodeRune_rune by exact H. unfold rune in H.
  destruct (r <? 128) eqn:E1; [cbn [app decodeRune]; ift; reflexivity|].
  destruct (r <? 2048) eqn:E2.
  { cbn [app decodeRune]. repeat ift. repeat f_equal. Z.div_mod_to_equations; lia. }
  destruct (r <? 65536) eqn:E3.
  { cbn [app decodeRune]. do 3 ift. 
    assert (B : (if 224 + r / 4096 =? 224 then 160 else 128) <= 128 + (r / 64) mod 64 <= (if 224 + r / 4096 =? 237 then 159 else 191)).
    { destruct (224 + r / 4096 =? 224) eqn:Q1, (224 + r / 4096 =? 237) eqn:Q2; Z.div_mod_to_equations; lia. }
    match goal with |- context [if ?b then _ else _] => replace b with true end.
    - repeat f_equal. Z.div_mod_to_equations; lia.
    - symmetry. rewrite !Bool.andb_true_iff. split; [split; apply Z.leb_le; tauto|]. unfold cont. Z.div_mod_to_equations; lia. }
  cbn [app decodeRune]. do 4 ift.
  assert (B : (if 240 + r / 262144 =? 240 then 144 else 128) <= 128 + (r / 4096) mod 64 <= (if 240 + r / 262144 =? 244 then 143 else 191)).
  { destruct (240 + r / 262144 =? 240) eqn:Q1, (240 + r / 262144 =? 244) eqn:Q2; Z.div_mod_to_equations; lia. }
  match goal with |- context [if ?b then _ else _] => replace b with true end.
  - repeat f_equal. Z.div_mod_to_equations; lia.
  - symmetry. rewrite !Bool.andb_true_iff. repeat split; [apply Z.leb_le; tauto|apply Z.leb_le; tauto| |]; unfold cont; Z.div_mod_to_equations; lia.
Qed.
Lemma encodeRune_pos : forall r, (1 <= length (encodeRune r))%nat.
Proof. intros r. unfold encodeRune. repeat match goal with |- context [if ?b then _ else _] => destruct b end; cbn; lia. Qed.
Lemma decodeN_utf8 : forall rs n, Forall rune rs -> (length (utf8 rs) <= n)%nat ->
  decodeN n (utf8 rs) = map (fun r => (r, encodeRune r)) rs.
Proof.
  induction rs as [|r rs IH]; intros n H L.
  - destruct n; reflexivity.
  - inversion H as [|? ? Hr Hrs]; subst. unfold utf8 in *. cbn [map concat] in *. rewrite app_length in L.
    pose proof (encodeRune_pos r) as P. destruct n as [|n]; [lia|]. cbn [decodeN]. rewrite decode_encode by exact Hr.
    cbn [map]. f_equal. apply IH; [exact Hrs|lia].
Qed.
Lemma decode_utf8 : forall rs, Forall rune rs -> decode (utf8 rs) = map (fun r => (r, encodeRune r)) rs.
Proof. intros rs H. apply decodeN_utf8; [exact H|apply le_n]. Qed.

(* every string is the concatenation of the bytes of its runes, whatever they are *)
Lemma decodeRune_app : forall s r b t, decodeRune s = Some (r, b, t) -> s = b ++ t /\ b <> [].
Proof.
  intros s r b t. unfold decodeRune. destruct s as [|b0 s]; [discriminate|].
  repeat match goal with
  | |- context [if ?c then _ else _] => destruct c
  | |- context [match ?l with [] => _ | _ :: _ => _ end] => destruct l
  end; intros E; injection E as <- <- <-; split; try reflexivity; discriminate.
Qed.
Lemma decodeN_concat : forall n s, (length s <= n)%nat -> concat (map snd (decodeN n s)) = s.
Proof.
  induction n as [|n IH]; intros s L; [destruct s; [reflexivity|cbn in L; lia]|].
  cbn [decodeN]. destruct (decodeRune s) as [[[r b] t]|] eqn:D.
  - destruct (decodeRune_app _ _ _ _ D) as (E & N). cbn. rewrite IH; [symmetry; exact E|].
    rewrite E, app_length in L. destruct b; [congruence|cbn in L; lia].
  - destruct s; [reflexivity|]. exfalso. revert D. unfold decodeRune.
    repeat match goal with
    | |- context [if ?c then _ else _] => destruct c
    | |- context [match ?l with [] => _ | _ :: _ => _ end] => destruct l
    end; discriminate.
Qed.
Lemma decodeRune_rune : forall s r b t, Forall (fun x => 0 <= x <= 255) s -> decodeRune s = Some (r, b, t) -> rune r.
Proof.
  intros s r b t H. unfold decodeRune. destruct s as [|b0 s]; [discriminate|]. inversion H as [|? ? H0 Hs]; subst.
  repeat match goal with
  | |- context [match ?l with [] => _ | _ :: _ => _ end] => destruct l
  | |- context [if ?c then _ else _] => destruct c eqn:?
  end; intros E; injection E as <- <- <-; unfold rune, cont in *;
  repeat match goal with H : context [if ?c then _ else _] |- _ => destruct c eqn:? end; try lia.
Qed.

(* ---------- Fields ---------- *)
Section Fields.
  Context (U : unicode).
  Local Notation dec := (map (fun r => (r, encodeRune r))).
  Lemma fields_spaces : forall w l, spaces U w -> fieldsAcc U [] (dec w ++ l) = fieldsAcc U [] l.
  Proof.
    induction w as [|c w IH]; intros l H; [reflexivity|]. inversion H as [|? ? Hc Hw]; subst. cbn [map app fieldsAcc]. rewrite Hc. apply IH. exact Hw.
  Qed.
  Lemma fields_word : forall x acc l, Forall (fun r => IsSpace U r = false) x ->
    fieldsAcc U acc (dec x ++ l) = fieldsAcc U (acc ++ utf8 x) l.
  Proof.
    induction x as [|c x IH]; intros acc l H; [cbn; rewrite app_nil_r; reflexivity|]. inversion H as [|? ? Hc Hw]; subst.
    cbn [map app fieldsAcc]. rewrite Hc, IH by exact Hw. unfold utf8. cbn [map concat]. rewrite app_assoc. reflexivity.
  Qed.
  Lemma utf8_nonempty : forall x, x <> [] -> utf8 x <> [].
  Proof.
    intros [|c x] N E; [congruence|]. unfold utf8 in E. cbn [map concat] in E. apply app_eq_nil in E. destruct E as (E & _).
    pose proof (encodeRune_pos c) as P. rewrite E in P. cbn in P. lia.
  Qed.
  Lemma fields_words : forall rs v, words U rs v -> fieldsAcc U [] (dec rs) = map utf8 v.
  Proof.
    induction 1 as [w H|w x H (N & Hx)|w x c rs v H (N & Hx) Hc W IH].
    - rewrite <- (app_nil_r (dec w)), fields_spaces by exact H. reflexivity.
    - rewrite map_app, fields_spaces by exact H. rewrite <- (app_nil_r (dec x)), fields_word by exact Hx. cbn [app fieldsAcc].
      pose proof (utf8_nonempty x N) as Q. destruct (utf8 x) eqn:E; [congruence|]. cbn. rewrite E. reflexivity.
    - rewrite !map_app, fields_spaces by exact H. rewrite fields_word by exact Hx. cbn [app map fieldsAcc]. rewrite Hc.
      pose proof (utf8_nonempty x N) as Q. destruct (utf8 x) eqn:E; [congruence|]. rewrite IH. reflexivity.
  Qed.
  Lemma words_exists : forall rs, exists v, words U rs v.
  Proof.
    intros rs.
    assert (G : (exists v, words U rs v) /\ forall x, word U x -> exists v, words U (x ++ rs) v); [|exact (proj1 G)].
    induction rs as [|c rs ((v & W) & IH)].
    - split; [exists []; constructor; constructor|]. intros x Hx. exists [x]. rewrite app_nil_r. apply (words_last U [] x); [constructor|exact Hx].
    - assert (G : forall x, word U x -> exists v, words U (x ++ c :: rs) v).
      { intros x Hx. destruct (IsSpace U c) eqn:Hc.
        - exists (x :: v). apply (words_more U [] x c rs v); [constructor|exact Hx|exact Hc|exact W].
        - destruct (IH (x ++ [c])) as (v' & W').
          + destruct Hx as (N & Hx). split; [destruct x; discriminate|]. apply Forall_app. split; [exact Hx|repeat constructor; exact Hc].
          + exists v'. rewrite <- app_assoc in W'. exact W'. }
      split; [|exact G]. destruct (IsSpace U c) eqn:Hc.
      + exists v. inversion W; subst.
        * apply words_none. constructor; assumption.
        * apply (words_last U (c :: w) x); [constructor; assumption|assumption].
        * apply (words_more U (c :: w) x c0 rs0 v0); [constructor; assumption|assumption|assumption|assumption].
      + destruct (IH [c]) as (v' & W'); [split; [discriminate|repeat constructor; exact Hc]|]. exists v'. exact W'.
  Qed.
End Fields.

Lemma strvec_some : forall l v, strvec l = Some v <-> l = map Some v.
Proof.
  induction l as [|[s|] l IH]; intros v; cbn [strvec].
  - split; [intros E; injection E as <-; reflexivity|]. destruct v; [reflexivity|discriminate].
  - destruct (strvec l) as [w|] eqn:E.
    + pose proof (proj1 (IH w) eq_refl) as ->. split; [intros H; injection H as <-; reflexivity|].
      destruct v as [|x v]; [discriminate|]. cbn. intros H. injection H as -> H. f_equal. f_equal.
      assert (Q : Some w = Some v) by (apply (IH v); exact H). injection Q as ->. reflexivity.
    + split; [discriminate|]. destruct v as [|x v]; [discriminate|]. cbn. intros H. injection H as -> H.
      assert (None = Some v) by (apply IH; exact H). discriminate.
  - split; [discriminate|]. destruct v; discriminate.
Qed.
Lemma utf8_inj : forall a b, Forall rune a -> Forall rune b -> utf8 a = utf8 b -> a = b.
Proof.
  intros a b Ha Hb E. pose proof (decode_utf8 a Ha) as A. pose proof (decode_utf8 b Hb) as B. rewrite E in A.
  rewrite A in B. assert (C : map fst (map (fun r => (r, encodeRune r)) a) = map fst (map (fun r => (r, encodeRune r)) b)) by (rewrite B; reflexivity).
  rewrite !map_map, !map_id in C. exact C.
Qed.
