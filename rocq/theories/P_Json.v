(* P_Json.v -- proofs about the texts for interchange. *)
From Coq Require Import List Bool ZArith Lia.
From Verif Require Import Base M_Array S_Array P_Array M_Scan S_Scan M_Strings M_Format S_Format P_Format P_Format2 P_Format3 S_TimeText M_Json S_Json.
Import ListNotations.
Open Scope list_scope. Open Scope Z_scope.

(* ---------- hexadecimal digits ---------- *)
Lemma unhex_digit n : 0 <= n < 16 -> unhex (hexdigit n) = Some n.
Proof. intros H. assert (n = 0 \/ n = 1 \/ n = 2 \/ n = 3 \/ n = 4 \/ n = 5 \/ n = 6 \/ n = 7 \/ n = 8 \/ n = 9 \/ n = 10 \/ n = 11 \/ n = 12 \/ n = 13 \/ n = 14 \/ n = 15) as Q by lia. repeat (destruct Q as [->|Q]; [reflexivity|]). subst. reflexivity. Qed.
Lemma hexdigit_ishex n : 0 <= n < 16 -> ishex (hexdigit n) /\ hexval (hexdigit n) = n.
Proof.
  intros H. unfold ishex, hexval, hexdigit. destruct (n <? 10) eqn:E.
  - split; [left; lia|]. replace (48 + n <=? 57) with true by lia. lia.
  - split; [right; right; lia|]. replace (87 + n <=? 57) with false by lia. replace (87 + n <=? 70) with false by lia. lia.
Qed.
Lemma unhexs_app n : forall m acc a b, unhexs n acc a = Some (m, []) -> forall k, unhexs (n + k) acc (a ++ b) = unhexs k m b.
Proof.
  induction n as [|n IH]; intros m acc a b H k; cbn [unhexs] in H.
  - injection H as -> ->. reflexivity.
  - destruct a as [|c a]; [discriminate H|]. cbn [app Nat.add unhexs]. destruct (unhex c) as [x|]; [|discriminate H]. apply IH, H.
Qed.
Lemma unhexs_digits n : forall z acc, 0 <= z < 16 ^ Z.of_nat n -> unhexs n acc (hexdigits n z) = Some (acc * 16 ^ Z.of_nat n + z, []).
Proof.
  induction n as [|n IH]; intros z acc H; [cbn [Z.of_nat] in H; cbn [hexdigits unhexs]; do 2 f_equal; change (16 ^ Z.of_nat 0) with 1 in *; lia|].
  cbn [hexdigits]. rewrite Nat2Z.inj_succ, Z.pow_succ_r in * by lia. assert (Hq : 0 <= z / 16 < 16 ^ Z.of_nat n) by (split; [apply Z.div_pos; lia|apply Z.div_lt_upper_bound; lia]).
  assert (Hm : 0 <= z mod 16 < 16) by (apply Z.mod_pos_bound; lia).
  replace (S n) with (n + 1)%nat by lia. rewrite (unhexs_app n _ _ _ _ (IH _ acc Hq) 1). cbn [unhexs]. rewrite unhex_digit by exact Hm. do 2 f_equal. pose proof (Z.div_mod z 16 ltac:(lia)). generalize dependent (16 ^ Z.of_nat n). intros p. intros. nia.
Qed.
Lemma unhexs_rest n z rest : 0 <= z < 16 ^ Z.of_nat n -> unhexs n 0 (hexdigits n z ++ rest) = Some (z, rest).
Proof. intros H. replace n with (n + 0)%nat at 1 by lia. rewrite (unhexs_app n _ _ _ rest (unhexs_digits n z 0 H) 0). cbn [unhexs]. do 2 f_equal. Qed.
Lemma hex4_digits z : 0 <= z < 65536 -> hex4 (hexdigits 4 z) z.
Proof.
  intros H. cbn [hexdigits app]. do 4 eexists. split; [reflexivity|].
  assert (B : forall x, 0 <= x mod 16 < 16) by (intros; apply Z.mod_pos_bound; lia).
  destruct (hexdigit_ishex (z / 16 / 16 / 16 mod 16) (B _)) as (H1 & E1). destruct (hexdigit_ishex (z / 16 / 16 mod 16) (B _)) as (H2 & E2). destruct (hexdigit_ishex (z / 16 mod 16) (B _)) as (H3 & E3). destruct (hexdigit_ishex (z mod 16) (B _)) as (H4 & E4).
  split; [exact H1|]. split; [exact H2|]. split; [exact H3|]. split; [exact H4|]. rewrite E1, E2, E3, E4.
  pose proof (Z.div_mod z 16 ltac:(lia)). pose proof (Z.div_mod (z / 16) 16 ltac:(lia)). pose proof (Z.div_mod (z / 16 / 16) 16 ltac:(lia)).
  assert (z / 16 / 16 / 16 mod 16 = z / 16 / 16 / 16). { apply Z.mod_small. split; [repeat apply Z.div_pos; lia|]. apply Z.div_lt_upper_bound; [lia|]. apply Z.div_lt_upper_bound; [lia|]. apply Z.div_lt_upper_bound; lia. }
  lia.
Qed.
Lemma hexdigits_runes n : forall z, 0 <= z -> Forall (fun c => 48 <= c <= 102 /\ c <> 92) (hexdigits n z).
Proof.
  induction n as [|n IH]; intros z H; [constructor|]. cbn [hexdigits]. apply Forall_app. split; [apply IH, Z.div_pos; lia|]. repeat constructor.
  - unfold hexdigit. pose proof (Z.mod_pos_bound z 16 ltac:(lia)). destruct (z mod 16 <? 10) eqn:E; lia.
  - unfold hexdigit. pose proof (Z.mod_pos_bound z 16 ltac:(lia)). destruct (z mod 16 <? 10) eqn:E; lia.
  - unfold hexdigit. pose proof (Z.mod_pos_bound z 16 ltac:(lia)). destruct (z mod 16 <? 10) eqn:E; lia.
Qed.

(* ---------- strings ---------- *)
Section Quotes.
  Context (IsPrint : Z -> bool) (del : bool) (AP : ascii_print IsPrint).
  (* the forms of an escaped rune *)
  Inductive esc_form (r : Z) : text -> Prop :=
  | ef_pair : r = 34 \/ r = 92 -> esc_form r [92; r]
  | ef_print : IsPrint r = true -> r <> 34 -> r <> 92 -> esc_form r [r]
  | ef_letter c : In (r, c) [(7, 97); (8, 98); (12, 102); (10, 110); (13, 114); (9, 116); (11, 118)] -> IsPrint r = false -> esc_form r [92; c]
  | ef_x : 0 <= r < 128 -> (r = 127 -> del = true) -> ~ In r [7; 8; 12; 10; 13; 9; 11; 34; 92] -> IsPrint r = false -> esc_form r (92 :: 120 :: hexdigits 2 r)
  | ef_u : 127 <= r < 65536 -> (r = 127 -> del = false) -> IsPrint r = false -> esc_form r (92 :: 117 :: hexdigits 4 r)
  | ef_U : 65536 <= r -> IsPrint r = false -> esc_form r (92 :: 85 :: hexdigits 8 r).
  Lemma form r : rune r -> esc_form r (escape_rune IsPrint del r).
  Proof.
    intros (H & _). destruct AP as (A1 & _). unfold escape_rune. change r_dquote with 34. change r_bslash with 92.
    destruct ((r =? 34) || (r =? 92)) eqn:E0; [apply ef_pair; lia|]. destruct (IsPrint r) eqn:EP; [apply ef_print; [exact EP|lia|lia]|].
    destruct (r =? 7) eqn:E1; [apply ef_letter; [assert (r = 7) by lia; subst; cbn; tauto|exact EP]|].
    destruct (r =? 8) eqn:E2; [apply ef_letter; [assert (r = 8) by lia; subst; cbn; tauto|exact EP]|].
    destruct (r =? 12) eqn:E3; [apply ef_letter; [assert (r = 12) by lia; subst; cbn; tauto|exact EP]|].
    destruct (r =? 10) eqn:E4; [apply ef_letter; [assert (r = 10) by lia; subst; cbn; tauto|exact EP]|].
    destruct (r =? 13) eqn:E5; [apply ef_letter; [assert (r = 13) by lia; subst; cbn; tauto|exact EP]|].
    destruct (r =? 9) eqn:E6; [apply ef_letter; [assert (r = 9) by lia; subst; cbn; tauto|exact EP]|].
    destruct (r =? 11) eqn:E7; [apply ef_letter; [assert (r = 11) by lia; subst; cbn; tauto|exact EP]|].
    destruct ((r <? 32) || del && (r =? 127)) eqn:E8.
    - apply ef_x; [destruct del; lia|destruct del; [reflexivity|lia]| |exact EP]. cbn [In]. lia.
    - destruct (r <? 65536) eqn:E9; [|apply ef_U; [lia|exact EP]]. apply ef_u; [|intros ->; destruct del; [discriminate E8|reflexivity]|exact EP]. split; [|lia].
      destruct (Z_lt_dec r 127) as [L|L]; [|lia]. exfalso. rewrite A1 in EP by lia. apply andb_false_iff in EP. destruct EP as [EP|EP]; lia.
  Qed.
  Lemma form_unquote r t rest : rune r -> esc_form r t -> UnquoteChar (t ++ rest) = Some (r, rest).
  Proof.
    intros (Hr & _) F. destruct F as [H|H N1 N2|c H EP|H ND N EP|H ND EP|H EP]; cbn [app].
    - destruct H as [->| ->]; reflexivity.
    - unfold UnquoteChar. change r_dquote with 34. change r_bslash with 92. replace (r =? 34) with false by lia. replace (r =? 92) with false by lia. reflexivity.
    - cbn [In] in H. repeat (destruct H as [H|H]; [injection H as <- <-; reflexivity|]). destruct H.
    - change (UnquoteChar (92 :: 120 :: hexdigits 2 r ++ rest)) with (match unhexs 2 0 (hexdigits 2 r ++ rest) with Some (v, t) => if v <? 128 then Some (v, t) else None | None => None end).
      rewrite unhexs_rest by (change (16 ^ Z.of_nat 2) with 256; lia). replace (r <? 128) with true by lia. reflexivity.
    - change (UnquoteChar (92 :: 117 :: hexdigits 4 r ++ rest)) with (match unhexs 4 0 (hexdigits 4 r ++ rest) with Some (v, t) => if v <=? 1114111 then Some (v, t) else None | None => None end).
      rewrite unhexs_rest by (change (16 ^ Z.of_nat 4) with 65536; lia). replace (r <=? 1114111) with true by lia. reflexivity.
    - change (UnquoteChar (92 :: 85 :: hexdigits 8 r ++ rest)) with (match unhexs 8 0 (hexdigits 8 r ++ rest) with Some (v, t) => if v <=? 1114111 then Some (v, t) else None | None => None end).
      rewrite unhexs_rest by (change (16 ^ Z.of_nat 8) with 4294967296; lia). replace (r <=? 1114111) with true by lia. reflexivity.
  Qed.
  Lemma form_runes r t : rune r -> esc_form r t -> t <> [] /\ Forall (fun c => c <> 10) t /\ forall s, escaped s -> escaped (t ++ s).
  Proof.
    intros (Hr & _) F. assert (HX : forall n z, 0 <= z -> Forall (fun c => c <> 10) (hexdigits n z)) by (intros n z Hz; eapply Forall_impl; [|apply (hexdigits_runes n z Hz)]; intros c Hc; cbv beta in *; lia).
    assert (HE : forall n z s, 0 <= z -> escaped s -> escaped (hexdigits n z ++ s)).
    { intros n z s Hz Hs. pose proof (hexdigits_runes n z Hz) as HF. induction HF as [|c l Hc _ IH]; [exact Hs|]. cbn [app]. apply esc_plain; [change r_bslash with 92; lia|change r_dquote with 34; lia|exact IH]. }
    destruct F as [H|H N1 N2|c H EP|H ND N EP|H ND EP|H EP].
    - split; [discriminate|]. split; [repeat constructor; lia|]. intros s Hs. apply esc_pair, Hs.
    - split; [discriminate|]. split; [repeat constructor; intros ->; destruct AP as (A1 & _); rewrite A1 in H by lia; discriminate H|]. intros s Hs. apply esc_plain; [exact N2|exact N1|exact Hs].
    - split; [discriminate|]. split; [|intros s Hs; apply esc_pair, Hs]. constructor; [lia|]. constructor; [|constructor]. cbn [In] in H. repeat (destruct H as [H|H]; [injection H as <- <-; lia|]). destruct H.
    - split; [discriminate|]. split; [repeat (constructor; [lia|]); apply HX; lia|]. intros s Hs. apply esc_pair, HE; [lia|exact Hs].
    - split; [discriminate|]. split; [repeat (constructor; [lia|]); apply HX; lia|]. intros s Hs. apply esc_pair, HE; [lia|exact Hs].
    - split; [discriminate|]. split; [repeat (constructor; [lia|]); apply HX; lia|]. intros s Hs. apply esc_pair, HE; [lia|exact Hs].
  Qed.
  Lemma body_unquote s : Forall rune s -> forall fuel, (length (flat_map (escape_rune IsPrint del) s) <= fuel)%nat -> unquote_loop fuel (flat_map (escape_rune IsPrint del) s) = Some s.
  Proof.
    induction 1 as [|r s Hr _ IH]; intros fuel Hf; [destruct fuel; reflexivity|]. cbn [flat_map] in *.
    pose proof (form r Hr) as F. destruct (form_runes r _ Hr F) as (NE & _ & _). pose proof (form_unquote r _ (flat_map (escape_rune IsPrint del) s) Hr F) as EU.
    destruct (escape_rune IsPrint del r) as [|c t] eqn:E; [contradiction|]. rewrite app_length in Hf. cbn [length] in Hf. destruct fuel as [|fuel]; [lia|].
    cbn [app] in *. cbn [unquote_loop]. rewrite EU, IH by lia. reflexivity.
  Qed.
  Lemma Unquote_Quote s : Forall rune s -> Unquote (Quote IsPrint del s) = Some s.
  Proof.
    intros H. unfold Unquote, Quote. rewrite rev_app_distr. cbn [rev app]. change (r_dquote =? r_dquote) with true. cbn [andb]. rewrite rev_involutive.
    replace (existsb (Z.eqb 10) (flat_map (escape_rune IsPrint del) s)) with false; [apply body_unquote; [exact H|lia]|].
    symmetry. apply not_true_is_false. intros E. apply existsb_exists in E. destruct E as (c & Hc & Ec). apply in_flat_map in Hc. destruct Hc as (r & Hr & Hc). rewrite Forall_forall in H. specialize (H r Hr).
    destruct (form_runes r _ H (form r H)) as (_ & HF & _). rewrite Forall_forall in HF. specialize (HF c Hc). cbv beta in HF. lia.
  Qed.
  Lemma body_escaped s : Forall rune s -> escaped (flat_map (escape_rune IsPrint del) s).
  Proof. induction 1 as [|r s Hr _ IH]; [constructor|]. cbn [flat_map]. destruct (form_runes r _ Hr (form r Hr)) as (_ & _ & HE). apply HE, IH. Qed.

  (* JSON *)
  Lemma json_rune_rune r : json_rune IsPrint del r -> rune r.
  Proof.
    destruct AP as (_ & A2). intros [H|[H|[H|H]]]; unfold rune; [specialize (A2 r H); lia| |lia|lia]. cbn [In] in H. lia.
  Qed.
  Lemma json_escape r t s : json_rune IsPrint del r -> json_chars t s -> json_chars (escape_rune IsPrint del r ++ t) (r :: s).
  Proof.
    intros H J. pose proof (json_rune_rune r H) as Hr. destruct AP as (A1 & A2). pose proof (form r Hr) as F. destruct F as [E|E N1 N2|c E EP|E ND N EP|E ND EP|E EP]; cbn [app].
    - apply (jc_esc r r); [destruct E as [->| ->]; cbn; tauto|exact J].
    - apply jc_plain; [apply (A2 r E)|exact N1|exact N2|exact J].
    - destruct H as [H|[H|H]]; [congruence| |].
      + apply (jc_esc c r); [|exact J]. cbn [In] in H, E. repeat (destruct E as [E|E]; [injection E as <- <-; cbn; lia || tauto|]). destruct E.
      + exfalso. cbn [In] in E. repeat (destruct E as [E|E]; [injection E as <- <-; lia|]). destruct E.
    - exfalso. destruct H as [H|[H|[H|(H & H0)]]]; [congruence| |lia|specialize (ND H); congruence]. apply N. cbn [In] in *. tauto.
    - change (92 :: 117 :: hexdigits 4 r ++ t) with (92 :: 117 :: (hexdigits 4 r) ++ t). apply jc_u; [apply hex4_digits; lia|apply Hr|exact J].
    - exfalso. destruct H as [H|[H|H]]; [congruence| |lia]. cbn [In] in H. lia.
  Qed.
  Lemma json_quote s : Forall (json_rune IsPrint del) s -> json_string (Quote IsPrint del s) s.
  Proof. intros H. unfold Quote. apply js_intro. induction H as [|r s Hr _ IH]; [constructor|]. cbn [flat_map]. apply json_escape; assumption. Qed.
End Quotes.
