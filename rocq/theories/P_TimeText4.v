(* P_TimeText4.v -- reading and printing time stamps. *)
From Verif Require Import Base M_Scan M_Format P_Format P_Format2 P_Format3 M_Time S_Time P_Time M_TimeText S_TimeText P_TimeText P_TimeText2 P_TimeText3.
Open Scope Z_scope.
Ltac Zify.zify_post_hook ::= Z.to_euclidean_division_equations.
Notation dg := (Forall (fun c => 48 <= c <= 57)).

Lemma macron_id s : Forall (fun c => c <> 175) s -> macron s = s.
Proof. intros F. apply macron_none. intros K. rewrite Forall_forall in F. apply (F _ K). reflexivity. Qed.
Lemma dg_no s : dg s -> Forall (fun c => c <> 175) s.
Proof. apply Forall_impl. intros c H. lia. Qed.
Lemma numeral_dg k n s : numeral k n s -> dg s. Proof. intros (_ & F & _). exact F. Qed.
Lemma date_no y m d s : date_text y m d s -> Forall (fun c => c <> 175) s.
Proof.
  intros (sy & sm & sd & Hy & Hm & Hd & ->). repeat (apply Forall_app; split); try (eapply dg_no, numeral_dg; eassumption); repeat constructor; discriminate.
Qed.
Lemma clock_no h mi sec ns s : clock_text h mi sec ns s -> Forall (fun c => c <> 175) s.
Proof.
  assert (O : forall x, x <> 175 -> Forall (fun c => c <> 175) [x]) by (intros x Hx; constructor; [exact Hx|constructor]).
  intros [(-> & _)|(sh & sm & r & Hh & Hm & -> & Hr)]; [constructor|].
  assert (Dh : dg sh) by (destruct Hh as [Hh|Hh]; eapply numeral_dg; exact Hh).
  apply Forall_app; split; [apply O; discriminate|]. apply Forall_app; split; [apply dg_no; exact Dh|]. apply Forall_app; split; [apply O; discriminate|].
  apply Forall_app; split; [eapply dg_no, numeral_dg; exact Hm|].
  destruct Hr as [(-> & _)|(ss & r' & Hs & -> & Hr')]; [constructor|].
  apply Forall_app; split; [apply O; discriminate|]. apply Forall_app; split; [eapply dg_no, numeral_dg; exact Hs|].
  destruct Hr' as [(-> & _)|(k & v & f & _ & Hf & -> & _)]; [constructor|].
  apply Forall_app; split; [apply O; discriminate|eapply dg_no, numeral_dg; exact Hf].
Qed.
Lemma span_digits ds : forall rest, dg ds -> stops rest -> span isdigit (ds ++ rest) = (ds, rest).
Proof.
  induction ds as [|c ds IH]; intros rest F S; cbn [app span].
  - destruct rest as [|c r]; [reflexivity|]. cbn [span]. rewrite isdigit_false by exact S. reflexivity.
  - inversion F as [|? ? Hc F']; subst. rewrite (isdigit_true c Hc). rewrite (IH rest F' S). reflexivity.
Qed.
Lemma fraction_none : fraction [] = Some (0, []). Proof. reflexivity. Qed.
Lemma digits_num_value ds : forall x, digits_num x ds = fold_left (fun x c => 10 * x + (c - 48)) ds x.
Proof. induction ds as [|c ds IH]; intros x; [reflexivity|]. cbn [digits_num fold_left]. rewrite IH. f_equal. lia. Qed.
Lemma fraction_digits k v f : 1 <= k <= 9 -> numeral k v f -> fraction ([46] ++ f) = Some (v * 10 ^ (9 - k), []).
Proof.
  intros Hk (L & F & V). destruct f as [|c f]; [unfold zlen in L; cbn in L; lia|]. cbn [app fraction]. change (46 =? c_point) with true.
  pose proof (Forall_inv F) as Hc. cbv beta in Hc. rewrite (isdigit_true c Hc). cbn [andb].
  pose proof (span_digits (c :: f) [] F Logic.I) as E. rewrite app_nil_r in E. rewrite E. rewrite L. destruct (Z.leb_spec k 9); [|lia].
  rewrite digits_num_value. unfold value in V. rewrite V. reflexivity.
Qed.
Lemma oneOrTwo_hour h sh r : numeral 1 h sh \/ numeral 2 h sh -> oneOrTwo (sh ++ [46] ++ r) = Some (h, [46] ++ r).
Proof.
  intros [H|H]; [|apply oneOrTwo_numeral; exact H]. destruct H as (L & F & V). destruct sh as [|a [|b sh]]; try (unfold zlen in L; cbn in L; lia).
  cbn [app oneOrTwo]. rewrite (isdigit_true a (Forall_inv F)). change (isdigit 46) with false. cbv iota. unfold value in V. cbn [fold_left] in V. f_equal. f_equal. lia.
Qed.
Lemma numeral_pos k n s : numeral k n s -> 0 <= n.
Proof.
  intros (_ & F & <-). unfold value. apply (dfold_ge s 0); [lia|exact F].
Qed.
Lemma hm_text h mi sh sm r : numeral 1 h sh \/ numeral 2 h sh -> numeral 2 mi sm ->
  hm ([84] ++ sh ++ [46] ++ sm ++ r) = if (h <? 24) && (mi <? 60) then Some (h, mi, r) else None.
Proof.
  intros Hh Hm. unfold hm. cbn [app skipc]. change (84 =? c_T) with true. cbv iota.
  pose proof (oneOrTwo_hour h sh (sm ++ r) Hh) as E. cbn [app] in E. rewrite E. destruct (h <? 24); [|reflexivity]. cbn [skipc andb]. change (46 =? c_point) with true. cbv iota.
  rewrite (fixed2_numeral mi sm r Hm). reflexivity.
Qed.
(* a text that starts like a date is not a duration *)
Lemma no_duration y m sy sm rest : numeral 4 y sy -> numeral 2 m sm -> ParseDuration (sy ++ [46] ++ sm ++ [46] ++ rest) = None.
Proof.
  intros Hy Hm. pose proof Hy as (Ly & Fy & Vy). pose proof Hm as (Lm & Fm & Vm).
  destruct (numeral2_inv m sm Hm) as (p & q & -> & Hp & Hq & Em).
  destruct sy as [|a [|b [|c [|e [|x sy]]]]]; try (unfold zlen in Ly; cbn in Ly; lia).
  set (s := [a; b; c; e] ++ [46] ++ [p; q] ++ [46] ++ rest).
  pose proof (Forall_inv Fy) as Ha. cbv beta in Ha. unfold ParseDuration.
  assert (Q : (a =? c_minus) || (a =? c_plus) = false) by (unfold c_minus, c_plus; lia).
  unfold s. cbn [app]. rewrite Q. cbv iota beta. fold s. destruct (list_eq_dec Z.eq_dec _ [48]) as [K|_]; [discriminate K|].
  cbn [length parseUnits]. rewrite (isdigit_true a Ha), Bool.orb_true_r. cbn [negb].
  change (a :: b :: c :: e :: 46 :: p :: q :: 46 :: rest) with s.
  assert (LI : leadingInt 0 s = Some (value [a; b; c; e], [46] ++ [p; q] ++ [46] ++ rest)).
  { unfold s. eapply eq_trans; [apply leadingInt_digits|]; [lia|exact Fy|cbn; lia| |reflexivity]. change (value [a; b; c; e] <= maxInt).
    unfold value, maxInt. cbn [fold_left]. inversion Fy as [|? ? _ F1]; subst. inversion F1 as [|? ? Hb F2]; subst. inversion F2 as [|? ? Hc F3]; subst. pose proof (Forall_inv F3) as He. cbv beta in He. lia. }
  rewrite LI. cbn [app]. change (46 =? c_point) with true. cbv iota.
  assert (LF : leadingFraction false 0 1 (p :: q :: 46 :: rest) = (value [p; q], 1 * 10 ^ zlen [p; q], 46 :: rest)).
  { change (p :: q :: 46 :: rest) with ([p; q] ++ (46 :: rest)). eapply eq_trans; [apply leadingFraction_digits|]; [lia|exact Fm|cbn; lia| |reflexivity].
    change (value [p; q] <= maxInt). unfold value, maxInt. cbn [fold_left]. lia. }
  rewrite LF. assert (P1 : zlen s =? zlen (46 :: p :: q :: 46 :: rest) = false) by (unfold s; cbn [app]; rewrite !zlen_cons; lia). rewrite P1. cbn [negb andb].
  assert (Sp : span (fun c0 : Z => negb ((c0 =? c_point) || isdigit c0)) (46 :: rest) = ([], 46 :: rest)) by reflexivity. rewrite Sp. reflexivity.
Qed.
Lemma date_valid first y m d t r : calendar first -> 1 <= m <= 12 -> validday y m d r = Some t <-> (1 <= d <= month_first first y (m + 1) - month_first first y m) /\ t = r.
Proof.
  intros Hc Hm. assert (FE : forall m, month_first first y m = month_first year_start y m) by (intros k; unfold month_first; rewrite !(calendar_unique first Hc); reflexivity).
  rewrite !FE. rewrite !month_first_start by lia. unfold validday, daysIn.
  destruct (Z.leb_spec 1 d), (Z.leb_spec d (month_start (is_leap y) (m + 1) - month_start (is_leap y) m)); cbn [andb].
  all: split; [intros E; first [discriminate E|injection E as <-; split; [lia|reflexivity]]|intros [E ->]; first [lia|reflexivity]].
Qed.
Lemma Date_moment first y m d h mi s : calendar first -> 1 <= m <= 12 -> Date y m d h mi s = moment first y m d h mi s 0.
Proof.
  intros Hc Hm. rewrite Date_in by exact Hm. unfold moment, midnight.
  assert (FE : month_first first y m = month_first year_start y m) by (unfold month_first; rewrite !(calendar_unique first Hc); reflexivity).
  rewrite FE. change second with 1000000000. lia.
Qed.
Theorem reads first y m d h mi sec ns sd sc : calendar first -> date_text y m d sd -> clock_text h mi sec ns sc ->
  forall t, ParseTime (sd ++ sc) = Some t <-> real_day first y m d /\ h < 24 /\ mi < 60 /\ sec < 60 /\ t = moment first y m d h mi sec ns.
Proof.
  intros Hc HD HC t. unfold ParseTime. rewrite macron_id by (apply Forall_app; split; [eapply date_no; exact HD|eapply clock_no; exact HC]).
  destruct HD as (sy & sm & sday & Hy & Hm & Hd & ->). rewrite <- !app_assoc.
  pose proof (no_duration y m sy sm (sday ++ sc) Hy Hm) as ND. rewrite ND. cbn [option_map].
  pose proof (ymd_numerals y m d sy sm sday sc Hy Hm Hd) as Y.
  destruct (Z.le_gt_cases 1 m) as [M1|M1]; [destruct (Z.le_gt_cases m 12) as [M2|M2]|].
  2:{ assert (B : (1 <=? m) && (m <=? 12) = false) by lia. rewrite B in Y. destruct (layouts_fail _ Y) as (-> & -> & ->). split; [discriminate|]. intros ((K & _) & _). lia. }
  2:{ assert (B : (1 <=? m) && (m <=? 12) = false) by lia. rewrite B in Y. destruct (layouts_fail _ Y) as (-> & -> & ->). split; [discriminate|]. intros ((K & _) & _). lia. }
  assert (B : (1 <=? m) && (m <=? 12) = true) by lia. rewrite B in Y. clear B.
  unfold layout_date, layout_minute, layout_second. rewrite !Y. unfold real_day.
  destruct HC as [(-> & -> & -> & -> & ->)|(sh & sm' & r & Hh & Hmi & -> & Hr)].
  { change (hm []) with (@None (Z * Z * tx)). cbv iota. rewrite (Date_moment first) by (assumption || lia).
    pose proof (date_valid first y m d t (moment first y m d 0 0 0 0) Hc (conj M1 M2)) as V. destruct (validday y m d (moment first y m d 0 0 0 0)) as [u|]; rewrite V; [|]; split; [intros (P & ->)|intros (P & _ & _ & _ & ->)|intros (P & ->)|intros (P & _ & _ & _ & ->)]; repeat split; lia || (try apply P) || reflexivity. }
  rewrite (hm_text h mi sh sm' r Hh Hmi). change ([84] ++ sh ++ [46] ++ sm' ++ r) with (84 :: (sh ++ [46] ++ sm' ++ r)). cbv iota.
  destruct (Z.ltb_spec h 24) as [H24|H24]; cbn [andb]; [|split; [discriminate|intros (_ & K & _); lia]].
  destruct (Z.ltb_spec mi 60) as [H60|H60]; [|split; [discriminate|intros (_ & _ & K & _); lia]].
  destruct Hr as [(-> & -> & ->)|(ss & r' & Hs & -> & Hr')].
  { cbn [skipc]. rewrite (Date_moment first) by (assumption || lia).
    pose proof (date_valid first y m d t (moment first y m d h mi 0 0) Hc (conj M1 M2)) as V. destruct (validday y m d (moment first y m d h mi 0 0)) as [u|]; rewrite V; [|]; split; [intros (P & ->)|intros (P & _ & _ & _ & ->)|intros (P & ->)|intros (P & _ & _ & _ & ->)]; repeat split; lia || (try apply P) || reflexivity. }
  cbn [app skipc]. change (46 =? c_point) with true. cbv iota. rewrite (fixed2_numeral sec ss r' Hs).
  destruct (Z.ltb_spec sec 60) as [S60|S60]; [|split; [discriminate|intros (_ & _ & _ & K & _); lia]].
  assert (Fr : fraction r' = Some (ns, [])).
  { destruct Hr' as [(-> & ->)|(k & v & f & Hk & Hf & -> & ->)]; [reflexivity|]. apply fraction_digits; assumption. }
  rewrite Fr. cbv iota. assert (EM : Date y m d h mi sec + ns = moment first y m d h mi sec ns) by (rewrite (Date_moment first) by (assumption || lia); unfold moment; lia). rewrite EM.
  pose proof (date_valid first y m d t (moment first y m d h mi sec ns) Hc (conj M1 M2)) as V. destruct (validday y m d (moment first y m d h mi sec ns)) as [u|]; rewrite V; [|]; split; [intros (P & ->)|intros (P & _ & _ & _ & ->)|intros (P & ->)|intros (P & _ & _ & _ & ->)]; repeat split; lia || (try apply P) || reflexivity.
Qed.
