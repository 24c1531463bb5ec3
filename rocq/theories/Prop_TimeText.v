(* Prop_TimeText.v -- C153: time stamps are read and printed; C154: durations are. *)
From Coq Require Import String.
From Verif Require Import Base M_Scan M_Format P_Format P_Format2 P_Format3 M_Time S_Time P_Time M_TimeText S_TimeText P_TimeText P_TimeText2 P_TimeText3 P_TimeText4 P_TimeText5.
From Coq Require Import List. Import ListNotations.
Open Scope Z_scope.

(* ---- C153 ---- *)
Section Stamps.
  Context (first : Z -> Z) (Hc : calendar first).

  (* A date, with or without the time of day, denotes the moment it names if the day exists in that month
     of that year and the time exists on the clock; otherwise it is no number at all. *)
  Theorem C153_reads y m d h mi sec ns sd sc : date_text y m d sd -> clock_text h mi sec ns sc ->
    forall t, ParseTime (sd ++ sc) = Some t <-> real_day first y m d /\ h < 24 /\ mi < 60 /\ sec < 60 /\ t = moment first y m d h mi sec ns.
  Proof. apply reads. exact Hc. Qed.
  Theorem C153_only s t : ParseTime s = Some t -> stamp t ->
    exists y m d h mi sec ns sd sc, date_text y m d sd /\ clock_text h mi sec ns sc /\ s = sd ++ sc.
  Proof. intros E St. apply (only_stamps s t E). unfold stamp in St. assert (2 ^ 63 <= y1k) by (vm_compute; discriminate). lia. Qed.
  (* the printed text of a time stamp up to the year 9999 is a date and a time to the millisecond, rounded
     down, with any print precision and for interchange *)
  Theorem C153_prints minus t : stamp t -> t < midnight (first 10000) ->
    exists y m d h mi sec ms sd sc, TimeString minus t = sd ++ sc /\ date_text y m d sd /\ clock_text h mi sec (ms * 1000000) sc
      /\ real_day first y m d /\ h < 24 /\ mi < 60 /\ sec < 60
      /\ moment first y m d h mi sec (ms * 1000000) <= t < moment first y m d h mi sec (ms * 1000000) + 1000000.
  Proof.
    intros St Hy. unfold stamp in St. assert (Ht : y1k <= t < midnight (first 10000)) by lia.
    assert (E : TimeString minus t = StampString t) by (unfold TimeString, Before; destruct (Z.ltb_spec t y1k); [lia|reflexivity]). rewrite E.
    destruct (printed first t Hc Ht) as (y & m & d & h & mi & sec & ms & sd & sc & P1 & P2 & P3 & P4 & P5 & P6 & P7 & P8).
    exists y, m, d, h, mi, sec, ms, sd, sc. rewrite P8. pose proof (Z.mod_pos_bound t 1000000). intuition lia.
  Qed.
  Theorem C153_reads_back minus t : stamp t -> t < midnight (first 10000) ->
    ParseTime (TimeString minus t) = Some (t - t mod 1000000).
  Proof. intros St Hy. apply (reads_back first); [exact Hc|unfold stamp in St; lia]. Qed.
  Corollary C153_exact minus t : stamp t -> t < midnight (first 10000) ->
    (ParseTime (TimeString minus t) = Some t <-> (1000000 | t)).
  Proof.
    intros St Hy. rewrite C153_reads_back by assumption. rewrite <- Z.mod_divide by lia. split.
    - intros E. assert (K : t - t mod 1000000 = t) by (injection E as K; exact K). lia.
    - intros ->. f_equal. lia.
  Qed.
End Stamps.
Definition runes (s : string) : list Z := map (fun c => Z.of_nat (Ascii.nat_of_ascii c)) (list_ascii_of_string s).
(* Microseconds are lost, with every print precision; a date before the year 1000 is taken for a duration
   and printed as the largest one; years from 10000 are printed and not read. *)
Theorem C153_refuted :
  (exists t, ParseTime (runes "2018.12.24T13.14.15.000001") = Some t /\ forall minus, ParseTime (TimeString minus t) <> Some t)
  /\ (exists t, ParseTime (runes "0500.01.01") = Some t /\ TimeString false t = runes "2562047h47m16.854775807s")
  /\ (forall minus, TimeString minus (Date 12018 1 1 0 0 0) = runes "12018.01.01T00.00.00.000" /\ ParseTime (runes "12018.01.01T00.00.00.000") = None).
Proof.
  split; [|split].
  - eexists. split; [vm_compute; reflexivity|]. intros [|]; vm_compute; discriminate.
  - eexists. split; [vm_compute; reflexivity|]. vm_compute. reflexivity.
  - intros [|]; split; vm_compute; reflexivity.
Qed.
Example C153_example :
  calendar year_start /\ date_text 2020 2 29 (runes "2020.02.29") /\ clock_text 13 5 0 0 (runes "T13.05") /\ clock_text 7 5 9 250000000 (runes "T7.05.09.25")
  /\ real_day year_start 2020 2 29 /\ ~ real_day year_start 2019 2 29
  /\ stamp (Date 2020 2 29 13 5 0) /\ Date 2020 2 29 13 5 0 < midnight (year_start 10000)
  /\ ParseTime (runes "2020.02.29T13.05") = Some (Date 2020 2 29 13 5 0) /\ ParseTime (runes "2019.02.29T13.05") = None
  /\ TimeString false (Date 2020 2 29 13 5 0) = runes "2020.02.29T13.05.00.000".
Proof.
  assert (NUM : forall k n s, zlen s = k -> forallb isdigit s = true -> value s = n -> numeral k n s).
  { intros k n s L F V. split; [exact L|]. split; [|exact V]. rewrite forallb_forall in F. apply Forall_forall. intros x Hx. apply isdigit_iff, F, Hx. }
  split; [exact year_start_calendar|].
  split. { exists (runes "2020"), (runes "02"), (runes "29"). split; [apply NUM; vm_compute; reflexivity|]. split; [apply NUM; vm_compute; reflexivity|]. split; [apply NUM; vm_compute; reflexivity|reflexivity]. }
  split. { right. exists (runes "13"), (runes "05"), []. split; [right; apply NUM; vm_compute; reflexivity|]. split; [apply NUM; vm_compute; reflexivity|]. split; [reflexivity|]. left. auto. }
  split. { right. exists (runes "7"), (runes "05"), (runes ".09.25"). split; [left; apply NUM; vm_compute; reflexivity|]. split; [apply NUM; vm_compute; reflexivity|]. split; [reflexivity|]. right.
    exists (runes "09"), (runes ".25"). split; [apply NUM; vm_compute; reflexivity|]. split; [reflexivity|]. right. exists 2, 25, (runes "25"). split; [lia|]. split; [apply NUM; vm_compute; reflexivity|]. split; vm_compute; reflexivity. }
  split; [vm_compute; repeat split; discriminate|]. split; [intros [_ [_ K]]; vm_compute in K; apply K; reflexivity|].
  repeat split; vm_compute; reflexivity.
Qed.

(* ---- C154 ---- *)
Theorem C154_reads_back_partial d : duration d -> ParseTime (TimeString false d) = Some d.
Proof.
  intros Hd. unfold TimeString, Before, duration in *. assert (L : 2 ^ 63 < y1k) by reflexivity. destruct (Z.ltb_spec d y1k); [|lia]. cbn [andb negb].
  assert (E : SubT d y0 = d) by (unfold SubT, minD, maxD, y0; lia). rewrite E. apply duration_back. exact Hd.
Qed.
(* the first number of a text, as the scanner sees it *)
Lemma scan_all s rest : forallb number_rune s = true -> match rest with [] => True | c :: _ => number_rune c = false end -> ScanNumber (s ++ rest) = (s, rest).
Proof.
  induction s as [|c s IH]; cbn [forallb app ScanNumber]; intros F R.
  - destruct rest as [|c r]; [reflexivity|]. cbn [ScanNumber]. rewrite R. reflexivity.
  - apply andb_prop in F. destruct F as [Fc F]. rewrite Fc. rewrite (IH F R). reflexivity.
Qed.
Lemma scan_part s w r : ScanNumber s = (w, r) -> forallb number_rune w = true.
Proof.
  revert w r. induction s as [|c s IH]; cbn [ScanNumber]; intros w r E; [injection E as <- <-; reflexivity|]. destruct (number_rune c) eqn:Nc; [|injection E as <- <-; reflexivity].
  destruct (ScanNumber s) as [w1 r1]. injection E as <- <-. cbn [forallb]. rewrite Nc. apply (IH w1 r1). reflexivity.
Qed.
Lemma dchar_number c : dchar c -> number_rune c = true.
Proof. intros [H|H]; [unfold number_rune, digit, rune_range; lia|]. cbn in H. unfold c_point, c_h, c_m, c_s, c_n in H. repeat (destruct H as [<-|H]; [reflexivity|]). destruct H. Qed.
Lemma to_macron_id s : ~ In c_minus s -> to_macron s = s.
Proof.
  induction s as [|c r IH]; intros N; [reflexivity|]. unfold to_macron in *. cbn [map]. rewrite IH by (intros K; apply N; right; exact K). f_equal.
  destruct (Z.eqb_spec c c_minus) as [->|_]; [exfalso; apply N; left; reflexivity|reflexivity].
Qed.
Lemma text_of d : duration d -> d <> 0 -> exists s0, TimeString false d = s0 ++ DurationString (Z.abs d) /\ forallb number_rune s0 = true.
Proof.
  intros Hd Nd. unfold TimeString, Before, duration in *. assert (L : 2 ^ 63 < y1k) by reflexivity. destruct (Z.ltb_spec d y1k); [|lia]. cbn [andb negb].
  assert (E : SubT d y0 = d) by (unfold SubT, minD, maxD, y0; lia). rewrite E.
  set (u := Z.abs d). assert (Hu : 0 < u <= maxInt) by (unfold u, maxInt; lia). destruct (dtext_chars u Hu) as [_ C].
  assert (NM : ~ In c_minus (DurationString u)).
  { intros I. apply (proj1 (Forall_forall _ _) C) in I. destruct I as [[I|I]|[I _]]; [unfold c_minus in I; lia| |discriminate I]. cbn in I. unfold c_point, c_h, c_m, c_s, c_n, c_minus in I. lia. }
  destruct (Z.lt_ge_cases d 0) as [Dn|Dn].
  - exists [175]. split; [|reflexivity]. replace d with (- u) by (unfold u; lia). rewrite DurationString_neg by lia. cbn [to_macron map app]. change (c_minus =? c_minus) with true. cbv iota. f_equal. apply to_macron_id. exact NM.
  - exists []. split; [|reflexivity]. assert (Eu : u = d) by (unfold u; lia). rewrite Eu in *. cbn [app]. apply to_macron_id. exact NM.
Qed.
(* The printed duration is one number for the scanner, unless it is between a microsecond and a
   millisecond. *)
Theorem C154_scanned_partial d rest : duration d -> ~ (1000 <= Z.abs d < 1000000) -> match rest with [] => True | c :: _ => number_rune c = false end ->
  ScanNumber (TimeString false d ++ rest) = (TimeString false d, rest).
Proof.
  intros Hd Hm R. apply scan_all; [|exact R]. destruct (Z.eq_dec d 0) as [->|Nd]; [reflexivity|]. destruct (text_of d Hd Nd) as (s0 & -> & F0).
  rewrite forallb_app, F0. cbn [andb]. assert (Hu : 0 < Z.abs d <= maxInt) by (unfold duration in Hd; unfold maxInt; lia).
  destruct (dtext_chars _ Hu) as [_ C]. apply forallb_forall. intros x Hx. rewrite Forall_forall in C. destruct (C x Hx) as [K|[_ K]]; [apply dchar_number; exact K|lia].
Qed.
(* Every other duration is not: the unit is printed with the rune of micro, which the scanner does not
   take. *)
Theorem C154_micro_refuted d : 1000 <= Z.abs d < 1000000 -> ScanNumber (TimeString false d) <> (TimeString false d, []).
Proof.
  intros Hm E. assert (Hd : duration d) by (unfold duration; lia). assert (Nd : d <> 0) by lia. apply scan_part in E. destruct (text_of d Hd Nd) as (s0 & ET & F0). rewrite ET in E.
  rewrite forallb_app in E. apply andb_prop in E. destruct E as [_ E]. assert (Hu : 0 < Z.abs d <= maxInt) by (unfold maxInt; lia).
  destruct (dtext_chars _ Hu) as [I _]. specialize (I Hm). rewrite forallb_forall in E. specialize (E _ I). discriminate E.
Qed.
(* Printed for interchange a duration is a time stamp in the year 0, which is read as a different number of
   nanoseconds or, if the duration is negative, not at all. *)
Theorem C154_interchange_refuted :
  TimeString true (90 * second) = runes "0000.01.01T00.01.30.000"
  /\ TimeString true (90 * second + 1) = runes "0000.01.01T00.01.30.000"
  /\ ParseTime (TimeString true (90 * second + 1)) = Some (90 * second).
Proof. repeat split; vm_compute; reflexivity. Qed.
(* durations beyond the range of 64 bit nanoseconds, which differences of stamps do not reach but sums do *)
Theorem C154_range_refuted : exists d e, duration d /\ Add2 d d = Some e /\ e < y1k /\ ParseTime (TimeString false e) <> Some e.
Proof. exists (2 ^ 63 - 1), (2 ^ 64 - 2). repeat split; vm_compute; (reflexivity || discriminate). Qed.
Example C154_example : duration (36 * 3600 * second + 5) /\ duration (- 1500) /\ ~ (1000 <= Z.abs (36 * 3600 * second + 5) < 1000000)
  /\ TimeString false (36 * 3600 * second + 5) = runes "36h0m0.000000005s" /\ ParseTime (runes "36h0m0.000000005s") = Some (36 * 3600 * second + 5)
  /\ ParseTime (runes "1.5m") = Some (90 * second) /\ 1000 <= Z.abs (-1500) < 1000000
  /\ fst (ScanNumber (TimeString false (-1500))) = 175 :: runes "1.5" /\ Add2 y0 (90 * second) = Some (90 * second).
Proof. repeat split; vm_compute; (reflexivity || discriminate || (intros [_ K]; vm_compute in K; discriminate)). Qed.

Print Assumptions C153_reads. Print Assumptions C153_only. Print Assumptions C153_prints. Print Assumptions C153_reads_back. Print Assumptions C153_exact. Print Assumptions C153_refuted.
Print Assumptions C154_reads_back_partial. Print Assumptions C154_scanned_partial. Print Assumptions C154_micro_refuted. Print Assumptions C154_interchange_refuted. Print Assumptions C154_range_refuted.
