(* Prop_Json.v -- C159: the text of a value for interchange (¯2⍕V) is JSON; C160: strings survive their text. *)
From Coq Require Import List Bool ZArith Lia.
From Verif Require Import Base M_Array S_Array P_Array M_Scan S_Scan M_Strings M_Format S_Format P_Scan P_Format P_Format2 P_Format3 S_TimeText P_TimeText M_Json S_Json P_Json P_Json2 Prop_Format.
Import ListNotations.
Open Scope list_scope. Open Scope Z_scope.

(* values built from non-negative integers, other numbers whose text is a JSON number, strings, arrays, lists and
   dictionaries with strings as keys *)
Theorem C159_json_partial : forall IsPrint del, ascii_print IsPrint -> forall v j, denotes IsPrint del v j ->
  exists t, jsonText (Quote IsPrint del) v = Ok t /\ json t j.
Proof. intros IsPrint del AP v j. exact (json_text_ok IsPrint del AP v j). Qed.

(* exactly these strings have a JSON text *)
Lemma hex4_det h t1 t2 z1 z2 u1 : h ++ t1 = u1 ++ t2 -> hex4 h z1 -> hex4 u1 z2 -> z1 = z2 /\ t1 = t2.
Proof.
  intros E (a & b & c & d & -> & _ & _ & _ & _ & ->) (a2 & b2 & c2 & d2 & -> & _ & _ & _ & _ & ->). cbn [app] in E. injection E as -> -> -> -> ->. split; reflexivity.
Qed.
Lemma chars_back IsPrint del (AP : ascii_print IsPrint) r t u : rune r -> json_chars (escape_rune IsPrint del r ++ t) u -> json_rune IsPrint del r /\ exists u', json_chars t u'.
Proof.
  intros Hr J. pose proof (form IsPrint del AP r Hr) as F. unfold json_rune. destruct F as [E|E N1 N2|c E EP|E ND N EP|E ND EP|E EP]; cbn [app] in J.
  - split; [right; left; destruct E as [->| ->]; cbn; tauto|]. inversion J as [|? ? ? ? ? ? J'|? ? ? ? ? J'|h z t0 s Hh ? J' Eq|h1 h2 z1 z2 t0 s ? ? ? ? J' Eq]; subst; [congruence|eexists; exact J'| |]; exfalso; lia.
  - split; [left; exact E|]. inversion J as [|? ? ? ? ? ? J'|? ? ? ? ? J'|h z t0 s Hh ? J' Eq|h1 h2 z1 z2 t0 s ? ? ? ? J' Eq]; subst; [eexists; exact J'| | |]; congruence.
  - inversion J as [|? ? ? ? ? ? J'|? r0 ? ? HI J'|h z t0 s Hh ? J' Eq|h1 h2 z1 z2 t0 s ? ? ? ? J' Eq]; subst; [congruence| | |].
    + split; [|eexists; exact J']. right. left. cbn [In] in E. repeat (destruct E as [E|E]; [injection E as <- <-; cbn [In] in *; first [lia|exfalso; repeat (destruct HI as [HI|HI]; [congruence|]); exact HI]|]). destruct E.
    + exfalso. cbn [In] in E. repeat (destruct E as [E|E]; [congruence|]). exact E.
    + exfalso. cbn [In] in E. repeat (destruct E as [E|E]; [congruence|]). exact E.
  - exfalso. inversion J as [|? ? ? ? ? ? J'|? r0 ? ? HI J'|h z t0 s Hh ? J' Eq|h1 h2 z1 z2 t0 s ? ? ? ? J' Eq]; subst; [congruence|]. cbn [In] in HI. repeat (destruct HI as [HI|HI]; [congruence|]). exact HI.
  - inversion J as [|? ? ? ? ? ? J'|? r0 ? ? HI J'|h z t0 s Hh ? J' Eq|h1 h2 z1 z2 t0 s H1 H2 H3 H4 J' Eq]; subst; [congruence| | |].
    + exfalso. cbn [In] in HI. repeat (destruct HI as [HI|HI]; [congruence|]). exact HI.
    + destruct (hex4_det h t0 t z r (hexdigits 4 r) Eq Hh (hex4_digits r ltac:(lia))) as (-> & ->). split; [|eexists; exact J']. right. right. destruct (Z.eq_dec r 127) as [->|N0].
      * right. split; [reflexivity|]. apply ND. reflexivity.
      * left. split; [lia|apply Hr].
    + exfalso. destruct (hex4_det h1 (92 :: 117 :: h2 ++ t0) t z1 r (hexdigits 4 r) Eq H1 (hex4_digits r ltac:(lia))) as (EZ & _). destruct Hr as (_ & Hr). lia.
  - exfalso. inversion J as [|? ? ? ? ? ? J'|? r0 ? ? HI J'|h z t0 s Hh ? J' Eq|h1 h2 z1 z2 t0 s ? ? ? ? J' Eq]; subst; [congruence|]. cbn [In] in HI. repeat (destruct HI as [HI|HI]; [congruence|]). exact HI.
Qed.

Lemma chars_all IsPrint del (AP : ascii_print IsPrint) s : Forall rune s -> forall u, json_chars (flat_map (escape_rune IsPrint del) s) u -> Forall (json_rune IsPrint del) s.
Proof. induction 1 as [|r s Hr _ IH]; intros u J; [constructor|]. cbn [flat_map] in J. destruct (chars_back IsPrint del AP r _ u Hr J) as (H1 & u' & J'). constructor; [exact H1|eapply IH, J']. Qed.
Theorem C159_strings : forall IsPrint del, ascii_print IsPrint -> forall s, Forall rune s ->
  ((exists t j, jsonText (Quote IsPrint del) (WStr s) = Ok t /\ json t j) <-> Forall (json_rune IsPrint del) s).
Proof.
  intros IsPrint del AP s Hs. split.
  - intros (t & j & E & J). cbn [jsonText] in E. injection E as <-. unfold Quote in J. inversion J as [t H|t H|t H|t u H|t l _ Eq|t l _ Eq]; subst.
    + destruct (json_int_head _ H) as (c & w & Eq & Hc & _). injection Eq as <- _. change r_dquote with 34 in Hc. lia.
    + destruct (number_runes _ H) as (c & w & Eq & Hc & _). injection Eq as <- _. change r_dquote with 34 in Hc. lia.
    + inversion H as [t v JC Eq]. subst. apply app_inj_tail in Eq. destruct Eq as (-> & _). eapply chars_all; eassumption.
  - intros H. exists (Quote IsPrint del s), (JStr s). split; [reflexivity|]. apply json_str, json_quote; assumption.
Qed.

(* but negative integers, booleans, the empty array and dictionaries with other keys have no JSON text *)
Lemma not_json_head t c s : t = c :: s -> ~ head_ok c -> ~ exists j, json t j.
Proof. intros -> N (j & J). destruct (json_head _ _ J) as (c' & s' & E & H & _). injection E as -> ->. exact (N H). Qed.
Theorem C159_values_refuted : forall quote,
  (forall z, z < 0 -> exists t, jsonText quote (WInt z) = Ok t /\ ~ exists j, json t j) /\
  (forall b, exists t, jsonText quote (WBool b) = Ok t /\ ~ exists j, json t j) /\
  (exists t, jsonText quote WEmpty = Ok t /\ ~ exists j, json t j) /\
  (exists t, jsonText quote (WDict [(WInt 1, WInt 2)]) = Ok t /\ ~ exists j, json t j) /\
  jsonText quote (WList [WEmpty]) = jsonText quote (WList []).
Proof.
  intros quote. split; [|split; [|split; [|split]]].
  - intros z Hz. exists (intString z). split; [reflexivity|]. unfold intString. replace (z <? 0) with true by lia. eapply not_json_head; [reflexivity|]. unfold head_ok, r_macron. lia.
  - intros b. eexists. split; [reflexivity|]. intros (j & J). destruct (json_head _ _ J) as (c & s & E & _ & H). destruct b; cbn in E; injection E as <- <-; specialize (H ltac:(lia)); inversion H as [|? ? _ H2]; subst; inversion H2 as [|? ? H3 _]; subst; destruct H3 as [H3|H3]; [lia|cbn in H3; lia|lia|cbn in H3; lia].
  - eexists. split; [reflexivity|]. intros (j & J). destruct (json_head _ _ J) as (c & s & E & _). discriminate E.
  - eexists. split; [vm_compute; reflexivity|]. intros (j & J). inversion J as [t H E|t H E|t H E|t s H E|t l H E|t l H E]; subst.
    + destruct (json_int_head _ H) as (c & w & Eq & Hc & _). injection Eq as <- _. lia.
    + destruct (number_runes _ H) as (c & w & Eq & Hc & _). injection Eq as <- _. lia.
    + inversion H.
    + change [49; 58; 50; 125] with ([49; 58; 50] ++ [125]) in E. apply app_inj_tail in E. destruct E as (-> & _). inversion H as [|k s t j0 HK _ Eq|k s t j0 u l0 HK _ _ _ Eq]; subst; inversion HK; subst; discriminate Eq.
  - reflexivity.
Qed.

(* the text of a string is read again as the string *)
Theorem C160_unquote : forall IsPrint del, ascii_print IsPrint -> forall s, Forall rune s -> Unquote (Quote IsPrint del s) = Some s.
Proof. intros. apply Unquote_Quote; assumption. Qed.
(* for the scanner, whatever follows *)
Theorem C160_token : forall C IsPrint del, ascii_print IsPrint -> s_unquote C = Unquote -> forall s rest, Forall rune s ->
  ReadString C (Quote IsPrint del s ++ rest) = Ok (s, rest) /\ written C (Tok M_Scan.String s) (Quote IsPrint del s) rest.
Proof.
  intros C IsPrint del AP HU s rest Hs. assert (Eb : escaped (flat_map (escape_rune IsPrint del) s)) by (apply body_escaped; assumption).
  assert (U : s_unquote C (Quote IsPrint del s) = Some s) by (rewrite HU; apply Unquote_Quote; assumption). split.
  - unfold Quote in *. cbn [app]. unfold ReadString. change (in_runes r_dquote [r_tick; r_quote; r_dquote]) with true. cbn [negb]. change (r_dquote =? r_tick) with false. change (r_dquote =? r_quote) with false. cbn iota.
    rewrite <- app_assoc. cbn [app]. rewrite readDouble_app by exact Eb. cbn [rev app]. rewrite U. reflexivity.
  - apply w_double; assumption.
Qed.
(* and for arrays of strings and integers with any runes: ParseArray of their JSON text *)
Theorem C160_array : forall (B : Type) C (oshow : B -> text) (oparse : text -> option B) IsPrint del, ascii_print IsPrint -> s_unquote C = Unquote ->
  forall v : arr (elt B), nonempty v -> Forall (fun e => match e with EInt z => - 2 ^ 63 <= z < 2 ^ 63 | EString s => Forall rune s | EBool _ => True | EOther _ => False end) (elems v) ->
  exists t, jsonArray (eltString oshow (Quote IsPrint del)) v = Ok t /\ ParseArray C (towerParse oparse) (@EString B) t = Ok (Cell v).
Proof.
  intros B C oshow oparse IsPrint del AP HU v NE F. apply C112_json; [exact NE|]. unfold readable_elems. eapply Forall_impl; [|exact F]. intros e He. cbv beta in He. destruct e as [b|z|s|o].
  - left. cbn [eltString]. split; [destruct b; discriminate|]. split; [destruct b; repeat constructor|]. destruct b; reflexivity.
  - left. cbn [eltString]. destruct (intString_runes z) as (N1 & N2 & _). split; [exact N1|]. split; [exact N2|]. apply towerParse_int. unfold int64. lia.
  - right. cbn [eltString]. exists (flat_map (escape_rune IsPrint del) s), s. split; [reflexivity|]. split; [apply body_escaped; assumption|]. split; [rewrite HU; apply Unquote_Quote; assumption|reflexivity].
  - destruct He.
Qed.

(* printable ASCII, for the examples *)
Definition ascii (r : Z) : bool := (32 <=? r) && (r <? 127).
Lemma ascii_ok : ascii_print ascii.
Proof. split; [intros; reflexivity|]. unfold ascii. intros r H. lia. Qed.
(* the dictionary a: 2 2⍴1 2 3 4, b: (x and a tabulator; 1.5) *)
Example C159_example :
  let v := WDict [(WStr [97], WArr [2; 2] [WInt 1; WInt 2; WInt 3; WInt 40]); (WStr [98], WList [WStr [120; 9]; WOther [49; 46; 53]])] in
  jsonText (Quote ascii true) v = Ok [123; 34; 97; 34; 58; 91; 91; 49; 44; 50; 93; 44; 91; 51; 44; 52; 48; 93; 93; 44; 34; 98; 34; 58; 91; 34; 120; 92; 116; 34; 44; 49; 46; 53; 93; 125] /\
  denotes ascii true v (JObj [([97], JArr [JArr [JInt 1; JInt 2]; JArr [JInt 3; JInt 40]]); ([98], JArr [JStr [120; 9]; JNum [49; 46; 53]])]).
Proof.
  split; [vm_compute; reflexivity|].
  apply (d_dict ascii true [[97]; [98]] [WArr [2; 2] [WInt 1; WInt 2; WInt 3; WInt 40]; WList [WStr [120; 9]; WOther [49; 46; 53]]] [JArr [JArr [JInt 1; JInt 2]; JArr [JInt 3; JInt 40]]; JArr [JStr [120; 9]; JNum [49; 46; 53]]]).
  - repeat constructor.
  - reflexivity.
  - constructor; [|constructor; [|constructor]].
    + apply (d_arr ascii true [2; 2] _ [JInt 1; JInt 2; JInt 3; JInt 40]); [discriminate|repeat constructor; lia|reflexivity|]. repeat (constructor; [apply d_int; lia|]). constructor.
    + apply d_list. constructor; [apply d_str; constructor; [left; reflexivity|constructor; [right; left; cbn; tauto|constructor]]|]. constructor; [|constructor]. apply d_other.
      exists [], [49], [46; 53], []. split; [reflexivity|]. split; [left; reflexivity|]. split; [right; exists 49, []; split; [reflexivity|split; [lia|constructor]]|]. split; [right; exists [53]; split; [reflexivity|split; [discriminate|repeat constructor; lia]]|left; reflexivity].
Qed.
Example C160_example :
  Quote ascii true [34; 92; 10; 7; 955; 65537] = [34; 92; 34; 92; 92; 92; 110; 92; 97; 92; 117; 48; 51; 98; 98; 92; 85; 48; 48; 48; 49; 48; 48; 48; 49; 34] /\
  Forall rune [34; 92; 10; 7; 955; 65537] /\ ascii_print ascii.
Proof. split; [vm_compute; reflexivity|]. split; [repeat constructor; lia|apply ascii_ok]. Qed.
Print Assumptions C159_json_partial.
Print Assumptions C159_strings.
Print Assumptions C159_values_refuted.
Print Assumptions C160_unquote.
Print Assumptions C160_token.
Print Assumptions C160_array.
