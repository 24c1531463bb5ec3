(* Prop_Names.v -- names (C96): the first letter decides between values and functions, and
   different spellings are different variables. *)
From Coq Require Import String Ascii List Bool ZArith NArith Lia.
From Verif Require Import Base M_Scan M_Syntax M_Parse.
Import ListNotations.
Open Scope Z_scope.
Open Scope list_scope.

(* a Unicode code point *)
Definition rune (r : Z) : Prop := 0 <= r < 1114112.
Section Names.
  Context (U : unicode).
  (* ⎕, ⍺, ⍵ *)
  Definition marker (r : Z) : Prop := r = r_quad \/ r = r_alpha \/ r = r_omega.
  (* how names are spelled *)
  Definition spelled (x : text) : Prop :=
    exists r w, x = r :: w /\ (r = r_underscore \/ IsLetter U r = true \/ marker r) /\
      Forall (fun r => r = r_underscore \/ IsLetter U r = true \/ IsNumber U r = true) w.
  (* the name of a value begins with an upper-case letter or one of ⎕ ⍺ ⍵ *)
  Definition names_value (x : text) : Prop := exists r w, x = r :: w /\ (IsUpper U r = true \/ marker r).

  Lemma marker_in r : in_runes r [r_quad; r_alpha; r_omega] = true <-> marker r.
  Proof.
    unfold in_runes, marker. cbn [existsb]. rewrite !orb_true_iff, !Z.eqb_eq. intuition congruence.
  Qed.
  Lemma allowed_rest w : all_allowed U false w = true <-> Forall (fun r => r = r_underscore \/ IsLetter U r = true \/ IsNumber U r = true) w.
  Proof.
    induction w as [|r w IH]; cbn [all_allowed]; [split; constructor|]. rewrite andb_true_iff, IH, Forall_cons_iff.
    assert (E : AllowedInVarname U r false = true <-> r = r_underscore \/ IsLetter U r = true \/ IsNumber U r = true); [|tauto].
    unfold AllowedInVarname. cbn [andb negb]. destruct (IsNumber U r); [tauto|]. rewrite orb_true_iff, Z.eqb_eq. intuition discriminate.
  Qed.
  Lemma allowed_spelled x : all_allowed U true x = true <-> x = [] \/ spelled x.
  Proof.
    destruct x as [|r w]; cbn [all_allowed]; [split; auto|]. rewrite andb_true_iff, allowed_rest.
    assert (E : AllowedInVarname U r true = true <-> r = r_underscore \/ IsLetter U r = true \/ marker r).
    { unfold AllowedInVarname. cbn [andb negb]. destruct (in_runes r _) eqn:M.
      - apply marker_in in M. tauto.
      - assert (~ marker r) by (rewrite <- marker_in; congruence). rewrite orb_true_iff, Z.eqb_eq. tauto. }
    rewrite E. split.
    - intros [H1 H2]. right. exists r, w. auto.
    - intros [H|(r' & w' & H & H1 & H2)]; [discriminate|]. injection H as <- <-. auto.
  Qed.
  Lemma upper_value x : upper U x = true <-> names_value x.
  Proof.
    unfold upper, names_value. destruct x as [|r w]; [split; [discriminate|intros (r & w & H & _); discriminate]|]. rewrite orb_true_iff, marker_in. split.
    - intros H. exists r, w. auto.
    - intros (r' & w' & H & H1). injection H as <- <-. exact H1.
  Qed.
  Lemma split_some t p x : split_arrow t = Some (p, x) <-> t = p ++ r_arrow :: x /\ ~ In r_arrow p.
  Proof.
    revert p x. induction t as [|r t IH]; intros p x; cbn [split_arrow].
    - split; [discriminate|]. intros [H _]. destruct p; discriminate.
    - destruct (r =? r_arrow) eqn:E.
      + apply Z.eqb_eq in E. subst r. split.
        * intros H. injection H as <- <-. split; [reflexivity|intros []].
        * intros [H N]. destruct p as [|q p]; [injection H as <-; reflexivity|]. injection H as <- _. destruct N. left. reflexivity.
      + apply Z.eqb_neq in E. destruct (split_arrow t) as [[p0 x0]|] eqn:S.
        * destruct (proj1 (IH p0 x0) eq_refl) as [-> N0]. split.
          -- intros H. injection H as <- <-. split; [reflexivity|]. intros [H|H]; [congruence|auto].
          -- intros [H N]. destruct p as [|q p]; [injection H as H _; congruence|]. injection H as <- H. 
             assert (Some (p0, x0) = Some (p, x)) as E2 by (apply IH; split; [exact H|intros Hi; apply N; right; exact Hi]). injection E2 as <- <-. reflexivity.
        * split; [discriminate|]. intros [H N]. destruct p as [|q p]; [injection H as H _; congruence|]. injection H as <- H.
          assert (None = Some (p, x)) by (apply IH; split; [exact H|intros Hi; apply N; right; exact Hi]). discriminate.
  Qed.
  Lemma split_none t : split_arrow t = None <-> ~ In r_arrow t.
  Proof.
    split.
    - induction t as [|r t IH]; cbn [split_arrow]; [intros _ []|]. destruct (r =? r_arrow) eqn:E; [discriminate|]. apply Z.eqb_neq in E.
      destruct (split_arrow t) as [[? ?]|]; [discriminate|]. intros _ [H|H]; [congruence|]. apply IH; auto.
    - intros N. destruct (split_arrow t) as [[p x]|] eqn:E; [|reflexivity]. apply split_some in E as [-> _]. destruct N. apply in_or_app. right. left. reflexivity.
  Qed.
  (* a name without an arrow is the name of a value or of a function, by its first letter *)
  Theorem C96_first_letter x : ~ In r_arrow x -> spelled x ->
    (names_value x -> isVarname (name_of U x) = (true, false)) /\ (~ names_value x -> isVarname (name_of U x) = (true, true)).
  Proof.
    intros N S. apply split_none in N. unfold name_of. rewrite N. rewrite (proj2 (allowed_spelled x)) by auto.
    destruct x as [|r w]; [destruct S as (? & ? & H & _); discriminate|]. cbn [negb].
    assert (SP : forall s, (exists r', In r' [r_quad; r_alpha; r_omega] /\ hd 0 s = r') -> s = r :: w -> names_value (r :: w)).
    { intros s (r' & Hr & Hd) ->. exists r, w. split; [reflexivity|]. right. cbn in Hd. subst r'. destruct Hr as [H|[H|[H|[]]]]; unfold marker; auto. }
    repeat (destruct list_eq_dec as [Ex|_]; [split; [reflexivity|intros Hn; exfalso; apply Hn; eapply (SP _); [|symmetry; exact Ex]; eexists; split; [|reflexivity]; cbn; auto]|]).
    destruct (upper U (r :: w)) eqn:Eu.
    - apply upper_value in Eu. split; [reflexivity|tauto].
    - split; [|reflexivity]. intros H. apply upper_value in H. congruence.
  Qed.
  (* package→name: the letter after the arrow decides; the parts are the texts before and after the first arrow *)
  Theorem C96_package p x : ~ In r_arrow p -> x = [] \/ spelled x ->
    exists fn, name_of U (p ++ r_arrow :: x) = Pkg (utf8 p) (utf8 x) fn /\ isVarname (name_of U (p ++ r_arrow :: x)) = (true, fn) /\ (fn = false <-> names_value x).
  Proof.
    intros N S. unfold name_of. rewrite (proj2 (split_some _ p x)) by auto. rewrite (proj2 (allowed_spelled x)) by exact S.
    destruct (p ++ r_arrow :: x) eqn:E; [destruct p; discriminate|]. eexists. split; [reflexivity|]. split; [reflexivity|]. rewrite negb_false_iff. apply upper_value.
  Qed.
  (* everything else is not a name *)
  Theorem C96_rejected t : fst (isVarname (name_of U t)) = true <->
    (~ In r_arrow t /\ spelled t) \/ exists p x, t = p ++ r_arrow :: x /\ ~ In r_arrow p /\ (x = [] \/ spelled x).
  Proof.
    destruct (split_arrow t) as [[p x]|] eqn:S.
    - pose proof S as S'. apply split_some in S' as [-> N]. unfold name_of. rewrite S. destruct (p ++ r_arrow :: x) as [|r w] eqn:E; [destruct p; discriminate|].
      assert (Hx : all_allowed U true x = true <-> (~ In r_arrow (r :: w) /\ spelled (r :: w)) \/ (exists p0 x0, r :: w = p0 ++ r_arrow :: x0 /\ ~ In r_arrow p0 /\ (x0 = [] \/ spelled x0))).
      { rewrite allowed_spelled. split.
        - intros H. right. exists p, x. auto.
        - intros [[H _]|(p0 & x0 & H & H1 & H2)].
          + exfalso. apply H. rewrite <- E. apply in_or_app. right. left. reflexivity.
          + assert (Some (p, x) = Some (p0, x0)) as E2 by (rewrite <- S; apply split_some; auto). injection E2 as <- <-. exact H2. }
      rewrite <- Hx. destruct (all_allowed U true x); cbn; [tauto|]. split; intros H; discriminate.
    - pose proof S as N. apply split_none in N. unfold name_of. rewrite S.
      assert (Hx : t <> [] /\ all_allowed U true t = true <-> (~ In r_arrow t /\ spelled t) \/ (exists p0 x0, t = p0 ++ r_arrow :: x0 /\ ~ In r_arrow p0 /\ (x0 = [] \/ spelled x0))).
      { rewrite allowed_spelled. split.
        - intros [H1 [H2|H2]]; [congruence|]. auto.
        - intros [[_ H]|(p0 & x0 & -> & _)]; [|destruct N; apply in_or_app; right; left; reflexivity]. split; [|auto]. intros ->. destruct H as (? & ? & H & _). discriminate. }
      rewrite <- Hx. destruct t as [|r w]; [cbn; split; [discriminate|intros [H _]; congruence]|].
      destruct (all_allowed U true (r :: w)); cbn [negb]; [|cbn; split; [discriminate|intros [_ H]; discriminate]].
      repeat destruct list_eq_dec; try (cbn; split; [intros _; split; [discriminate|reflexivity]|reflexivity]).
      destruct (upper U (r :: w)); cbn; (split; [intros _; split; [discriminate|reflexivity]|reflexivity]).
  Qed.

  (* ---------- different spellings are different names ---------- *)
  Lemma byte_inj a b : 0 <= a < 256 -> 0 <= b < 256 -> byte a = byte b -> a = b.
  Proof.
    intros Ha Hb H. unfold byte in H. assert (E : N_of_ascii (ascii_of_N (Z.to_N a)) = N_of_ascii (ascii_of_N (Z.to_N b))) by (rewrite H; reflexivity).
    rewrite !N_ascii_embedding in E by lia. lia.
  Qed.
  Lemma string_inj a s b s' : 0 <= a < 256 -> 0 <= b < 256 -> String.String (byte a) s = String.String (byte b) s' -> a = b /\ s = s'.
  Proof. intros Ha Hb H. injection H as H1 H2. split; [apply byte_inj; assumption|exact H2]. Qed.

  Lemma utf8_rune_inj r r' s s' : rune r -> rune r' -> utf8_rune r s = utf8_rune r' s' -> r = r' /\ s = s'.
  Proof.
    intros Hr Hr'. unfold rune in *. unfold utf8_rune.
    assert (M : forall z, 0 <= z mod 64 < 64) by (intros z; apply Z.mod_pos_bound; lia).
    assert (B : forall z, 128 <= 128 + z mod 64 < 192) by (intros z; specialize (M z); lia).
    pose proof (B r). pose proof (B (r / 64)). pose proof (B (r / 4096)). pose proof (B r'). pose proof (B (r' / 64)). pose proof (B (r' / 4096)).
    destruct (r <? 128) eqn:E1; [|destruct (r <? 2048) eqn:E2; [|destruct (r <? 65536) eqn:E3]];
    (destruct (r' <? 128) eqn:F1; [|destruct (r' <? 2048) eqn:F2; [|destruct (r' <? 65536) eqn:F3]]);
    rewrite ?Z.ltb_lt, ?Z.ltb_ge in *; intros HH.
    all: repeat match goal with
      | HH : String.String (byte ?a) _ = String.String (byte ?b) _ |- _ =>
          let H1 := fresh "Q" in let H2 := fresh "Q" in
          assert (H1 : 0 <= a < 256) by (clear HH; Z.to_euclidean_division_equations; lia);
          assert (H2 : 0 <= b < 256) by (clear HH; Z.to_euclidean_division_equations; lia);
          apply (string_inj _ _ _ _ H1 H2) in HH; destruct HH as [? HH]; clear H1 H2
      end.
    all: try (split; [|assumption]).
    all: try (exfalso; clear HH; Z.to_euclidean_division_equations; lia).
    all: clear HH; Z.to_euclidean_division_equations; lia.
  Qed.
  Lemma utf8_inj t : forall t', Forall rune t -> Forall rune t' -> utf8 t = utf8 t' -> t = t'.
  Proof.
    assert (N : forall r s, utf8_rune r s <> EmptyString) by (intros r s; unfold utf8_rune; repeat destruct (_ <? _); discriminate).
    induction t as [|r t IH]; intros [|r' t'] H H' E; cbn [utf8] in E; [reflexivity|destruct (N r' (utf8 t')); auto|destruct (N r (utf8 t)); auto|].
    inversion H; subst. inversion H'; subst. apply utf8_rune_inj in E as [-> E]; auto. f_equal. apply IH; assumption.
  Qed.
  (* C96: names that are spelled differently are different variables *)
  Theorem C96_distinct t t' : Forall rune t -> Forall rune t' -> name_of U t = name_of U t' -> t = t'.
  Proof.
    intros H H' E.
    assert (K : forall w w', Forall rune w -> Forall rune w' -> utf8 w = utf8 w' -> w = w') by (intros; apply utf8_inj; assumption).
    unfold name_of in E.
    assert (P : forall w p x, split_arrow w = Some (p, x) -> Forall rune w -> Forall rune p /\ Forall rune x /\ w = p ++ r_arrow :: x).
    { intros w p x S F. apply split_some in S as [-> _]. apply Forall_app in F as [F1 F2]. inversion F2; subst. auto. }
    assert (NE : forall r w, utf8 (r :: w) <> EmptyString) by (intros r w; cbn [utf8]; unfold utf8_rune; repeat destruct (_ <? _); discriminate).
    destruct t as [|r w], t' as [|r' w']; auto.
    - destruct (split_arrow (r' :: w')) as [[p x]|].
      + destruct (all_allowed U true x); [discriminate|]. injection E as E. destruct (NE r' w'); auto.
      + destruct (all_allowed U true (r' :: w')); cbn [negb] in E.
        * repeat (destruct list_eq_dec; [discriminate|]). destruct (upper U (r' :: w')); discriminate.
        * injection E as E. destruct (NE r' w'); auto.
    - destruct (split_arrow (r :: w)) as [[p x]|].
      + destruct (all_allowed U true x); [discriminate|]. injection E as E. destruct (NE r w); auto.
      + destruct (all_allowed U true (r :: w)); cbn [negb] in E.
        * repeat (destruct list_eq_dec; [discriminate|]). destruct (upper U (r :: w)); discriminate.
        * injection E as E. destruct (NE r w); auto.
    - destruct (split_arrow (r :: w)) as [[p x]|] eqn:S1, (split_arrow (r' :: w')) as [[p' x']|] eqn:S2.
      + destruct (P _ _ _ S1 H) as (A1 & A2 & A3). destruct (P _ _ _ S2 H') as (B1 & B2 & B3).
        destruct (all_allowed U true x), (all_allowed U true x'); try discriminate; [|injection E as E; apply K; assumption].
        injection E as E1 E2 _. apply K in E1; auto. apply K in E2; auto. subst. congruence.
      + destruct (all_allowed U true x), (all_allowed U true (r' :: w')); cbn [negb] in E; try discriminate.
        * repeat (destruct list_eq_dec; [discriminate|]). destruct (upper U (r' :: w')); discriminate.
        * repeat (destruct list_eq_dec; [discriminate|]). destruct (upper U (r' :: w')); discriminate.
        * injection E as E. apply K; assumption.
      + destruct (all_allowed U true x'), (all_allowed U true (r :: w)); cbn [negb] in E; try discriminate.
        * repeat (destruct list_eq_dec; [discriminate|]). destruct (upper U (r :: w)); discriminate.
        * repeat (destruct list_eq_dec; [discriminate|]). destruct (upper U (r :: w)); discriminate.
        * injection E as E. apply K; assumption.
      + destruct (all_allowed U true (r :: w)), (all_allowed U true (r' :: w')); cbn [negb] in E.
        * repeat match type of E with context [list_eq_dec Z.eq_dec ?a ?b] => destruct (list_eq_dec Z.eq_dec a b) end;
            try congruence; destruct (upper U (r :: w)); try discriminate; destruct (upper U (r' :: w')); try discriminate; injection E as E; apply K; assumption.
        * repeat (destruct list_eq_dec; [discriminate|]). destruct (upper U (r :: w)); discriminate.
        * repeat (destruct list_eq_dec; [discriminate|]). destruct (upper U (r' :: w')); discriminate.
        * injection E as E. apply K; assumption.
  Qed.
End Names.
(* Ab1, ab1, p→Ab *)
Definition ascii_only : unicode := mkUnicode (fun _ => false) (fun _ => false) (fun _ => false) (fun _ => false).
Example C96_example : isVarname (name_of ascii_only [65; 98; 49]) = (true, false) /\ isVarname (name_of ascii_only [97; 98; 49]) = (true, true) /\
  name_of ascii_only [112; r_arrow; 65; 98] = Pkg "p" "Ab" false /\ isVarname (name_of ascii_only [49; 97]) = (false, false) /\
  name_of ascii_only [r_alpha; 98] = Num (utf8 [r_alpha; 98]).
Proof. repeat split; vm_compute; reflexivity. Qed.
Print Assumptions C96_first_letter. Print Assumptions C96_package. Print Assumptions C96_rejected. Print Assumptions C96_distinct.
