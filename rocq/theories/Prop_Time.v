(* Prop_Time.v -- C120 to C122: time stamps, durations, rounding. *)
From Coq Require Import Lia ZArith.
From Verif Require Import Base M_Time S_Time P_Time.
Ltac Zify.zify_post_hook ::= Z.to_euclidean_division_equations.

Ltac nano := unfold stamp, duration, Add2, Sub2, Neg, Duration, Sign, AbsT, Less, AddT, SubT, negD, wrap, After, Before, y0, minD, maxD in *.
Lemma y1k_big : 2 ^ 64 < y1k. Proof. reflexivity. Qed.

(* ---------- C120: arithmetic ---------- *)
Theorem C120_add_partial t d : stamp t -> duration d -> Add2 t d = Some (t + d) /\ Add2 d t = Some (t + d).
Proof.
  pose proof y1k_big. nano. intros T D.
  destruct (Z.ltb_spec y1k t); [|lia]. destruct (Z.ltb_spec y1k d); [lia|]. cbn [andb]. split; f_equal; lia.
Qed.
Theorem C120_add_durations_partial d e : duration d -> duration e -> Add2 d e = Some (d + e).
Proof.
  pose proof y1k_big. nano. intros T D.
  destruct (Z.ltb_spec y1k d); [lia|]. destruct (Z.ltb_spec y1k e); [lia|]. cbn [andb]. f_equal; lia.
Qed.
(* two stamps cannot be added, a stamp cannot be subtracted from a duration *)
Theorem C120_refused t u d : stamp t -> stamp u -> duration d -> Add2 t u = None /\ Sub2 d t = None /\ Neg t = None.
Proof.
  pose proof y1k_big. nano. intros T U D.
  destruct (Z.ltb_spec y1k t); [|lia]. destruct (Z.ltb_spec y1k u); [|lia]. destruct (Z.ltb_spec y1k d); [lia|].
  destruct (Z.ltb_spec d y1k); [|lia]. destruct (Z.ltb_spec t y1k); [lia|]. cbn [andb]. split; [|split]; reflexivity.
Qed.
Theorem C120_difference_partial t u : stamp t -> stamp u -> duration (t - u) -> Sub2 t u = Some (t - u).
Proof.
  pose proof y1k_big. nano. intros T U D.
  destruct (Z.ltb_spec y1k t); [|lia]. destruct (Z.ltb_spec y1k u); [|lia]. cbn [andb]. f_equal; lia.
Qed.
Theorem C120_subtract_partial t d : stamp t -> duration d -> Sub2 t d = Some (t - d).
Proof.
  pose proof y1k_big. nano. intros T D.
  destruct (Z.ltb_spec y1k t); [|lia]. destruct (Z.ltb_spec y1k d); [lia|]. destruct (Z.ltb_spec d y1k); [|lia].
  destruct (Z.ltb_spec t y1k); [lia|]. cbn [andb]. f_equal; lia.
Qed.
Theorem C120_subtract_durations_partial d e : duration d -> duration e -> Sub2 d e = Some (d - e).
Proof.
  pose proof y1k_big. nano. intros T D.
  destruct (Z.ltb_spec y1k d); [lia|]. destruct (Z.ltb_spec y1k e); [lia|]. destruct (Z.ltb_spec e y1k); [|lia].
  destruct (Z.ltb_spec d y1k); [|lia]. cbn [andb]. f_equal; lia.
Qed.
(* what was added can be taken away, and the difference added again *)
Theorem C120_inverse_partial t u d : stamp t -> stamp u -> duration d ->
  (stamp (t + d) -> exists s, Add2 t d = Some s /\ Sub2 s d = Some t /\ Sub2 s t = Some d)
  /\ (duration (t - u) -> exists e, Sub2 t u = Some e /\ Add2 u e = Some t).
Proof.
  intros T U D. split.
  - intros S. exists (t + d). split; [apply C120_add_partial; assumption|]. split.
    + rewrite C120_subtract_partial by assumption. f_equal. lia.
    + rewrite C120_difference_partial by (try assumption; replace (t + d - t) with d by lia; exact D). f_equal. lia.
  - intros E. exists (t - u). split; [apply C120_difference_partial; assumption|].
    destruct (C120_add_partial u (t - u) U E) as [A _]. rewrite A. f_equal. lia.
Qed.
(* signs and order *)
Theorem C120_sign_partial d : duration d -> Neg d = Some (- d) /\ AbsT d = Z.abs d /\ Sign d = Z.sgn d.
Proof.
  pose proof y1k_big. nano. intros D. destruct (Z.ltb_spec d y1k); [|lia].
  destruct (Z.ltb_spec d 0), (Z.ltb_spec 0 d); (split; [|split]); try (f_equal; lia); lia.
Qed.
Theorem C120_order t u v : (Less t u = true <-> t < u) /\ (Less t u = true -> Less u v = true -> Less t v = true)
  /\ (Less t u = true -> Less u t = false).
Proof. nano. rewrite !Z.ltb_lt, Z.ltb_ge. split; [reflexivity|]. lia. Qed.
(* The full statement is false: stamps that are more than 292 years apart have a wrong
   difference; the stamp 1000.01.01T00.00.00 is neither a stamp nor a duration: adding a second
   to it gives a duration, and it cannot be subtracted from a later stamp; sums of durations
   are durations beyond 292 years, but then not added correctly; and the duration of -2^63
   nanoseconds has a negative absolute value. *)
Theorem C120_refuted :
  (let t := Date 2020 1 1 0 0 0 in let u := Date 1700 1 1 0 0 0 in
     stamp t /\ stamp u /\ Sub2 t u = Some maxD /\ Add2 u maxD <> Some t)
  /\ (Add2 y1k second = Some (second + maxD) /\ Sub2 (Date 2020 1 1 0 0 0) y1k = None)
  /\ (let d := 290 * 365 * day in exists e, Add2 d d = Some e /\ Add2 e d <> Some (d + d + d))
  /\ AbsT minD = minD.
Proof.
  split; [vm_compute; repeat split; discriminate|]. split; [vm_compute; repeat split|]. split; [|vm_compute; reflexivity].
  exists (2 * (290 * 365 * day)). split; [vm_compute; reflexivity|vm_compute; discriminate].
Qed.
Print Assumptions C120_inverse_partial.

Example C120_example : stamp (Date 2018 12 24 20 0 0) /\ duration (36 * 3600 * second) /\ duration (- (90 * second))
  /\ stamp (Date 2018 12 24 20 0 0 + 36 * 3600 * second)
  /\ Add2 (Date 2018 12 24 20 0 0) (36 * 3600 * second) = Some (Date 2018 12 26 8 0 0)
  /\ Sub2 (Date 2018 12 26 8 0 0) (Date 2018 12 24 20 0 0) = Some (36 * 3600 * second)
  /\ AbsT (- (90 * second)) = 90 * second.
Proof. vm_compute. repeat split; discriminate. Qed.

(* ---------- C121: floor, ceiling and rounding of stamps ---------- *)
Lemma Truncate_second t : Truncate t second = t / second * second.
Proof.
  unfold Truncate. cbv zeta. replace (t - 366 * day) with (t + - (366 * 86400) * second) by (unfold day; lia).
  rewrite Z.div_add by discriminate. unfold day. lia.
Qed.
Theorem C121_floor t : exists n, FloorT t = n * second /\ n * second <= t < (n + 1) * second.
Proof. exists (t / second). unfold FloorT. rewrite Truncate_second. split; [reflexivity|]. unfold second. lia. Qed.
(* The ceiling is the nearest second, half a second goes up: below the time for 1.2s. *)
Theorem C121_ceil_partial t : exists n, CeilT t = n * second /\ 2 * t - second < 2 * CeilT t <= 2 * t + second.
Proof. exists ((t + 500000000) / second). unfold CeilT, AddT. rewrite Truncate_second. change (500 * 1000000) with 500000000. split; [reflexivity|]. unfold second. lia. Qed.
Theorem C121_ceil_refuted : exists t, CeilT t < t /\ t < CeilT t + second.
Proof. exists 1200000000. vm_compute. split; reflexivity. Qed.

Section Round.
  Context (first : Z -> Z) (Hc : calendar first) (n : nat).
  Lemma stamp_round (t : Z) (p : period) : stamp t -> Duration t = None.
  Proof. nano. intros T. destruct (Z.ltb_spec t y1k); [lia|reflexivity]. Qed.
  Lemma first_eq y m : month_first first y m = month_first year_start y m.
  Proof. unfold month_first. rewrite !(calendar_unique first Hc). reflexivity. Qed.
  Lemma first_jan y : month_first first y 1 = first y.
  Proof. unfold month_first. cbn. lia. Qed.

  (* The start of the year, the month, the quarter that the time is in. *)
  Theorem C121_year t : stamp t -> exists r y, Round n t PY = Ok r /\ r = midnight (first y) /\ r <= t < midnight (first (y + 1)).
  Proof.
    intros T. unfold Round. rewrite (stamp_round t PY T). exists (Date (YearT t) 1 1 0 0 0), (YearT t). split; [reflexivity|].
    rewrite Date_in by lia. rewrite !(calendar_unique first Hc).
    pose proof (year_of_spec (dayno t)) as Y. fold (YearT t) in Y. pose proof (dayno_spec t) as D. unfold midnight in *.
    assert (E : month_first year_start (YearT t) 1 = year_start (YearT t)) by (unfold month_first; cbn; lia). rewrite E.
    split; [lia|]. pose proof day_pos. nia.
  Qed.
  Theorem C121_month t : stamp t -> exists r y m, Round n t PM = Ok r /\ 1 <= m <= 12
    /\ r = midnight (month_first first y m) /\ r <= t < midnight (month_first first y (m + 1)).
  Proof.
    intros T. unfold Round. rewrite (stamp_round t PM T). destruct (date_parts t) as (M & B & _).
    exists (Date (YearT t) (MonthT t) 1 0 0 0), (YearT t), (MonthT t). split; [reflexivity|]. split; [exact M|].
    rewrite Date_in by exact M. rewrite !first_eq. pose proof (dayno_spec t) as D. unfold midnight in *.
    split; [lia|]. pose proof day_pos. nia.
  Qed.
  Theorem C121_quarter t : stamp t -> exists r y q, Round n t PQ = Ok r /\ In q [1; 4; 7; 10]
    /\ r = midnight (month_first first y q) /\ r <= t < midnight (month_first first y (q + 3)).
  Proof.
    intros T. unfold Round. rewrite (stamp_round t PQ T). set (y := YearT t).
    pose proof (year_of_spec (dayno t)) as Y. fold (YearT t) in Y. fold y in Y. pose proof (dayno_spec t) as D. pose proof day_pos as P.
    assert (E13 : month_first year_start y 13 = year_start (y + 1)) by apply month_first_13.
    assert (E1 : month_first year_start y 1 = year_start y) by (unfold month_first; cbn; lia).
    assert (Dt : forall m, 1 <= m <= 12 -> Date y m 1 0 0 0 = midnight (month_first year_start y m)).
    { intros m M. rewrite Date_in by exact M. unfold midnight. lia. }
    unfold roundQuarter, Before. fold y. rewrite !Dt by lia. unfold midnight in *.
    assert (Q1 : month_first year_start y 1 * day <= t) by (rewrite E1; clear - Y D P; nia).
    assert (Q2 : t < month_first year_start y 13 * day) by (rewrite E13; clear - Y D P; nia).
    destruct (Z.ltb_spec t (month_first year_start y 4 * day)).
    { exists (month_first year_start y 1 * day), y, 1. rewrite !first_eq. split; [reflexivity|]. split; [cbn; tauto|]. split; [reflexivity|]. change (1 + 3) with 4. lia. }
    destruct (Z.ltb_spec t (month_first year_start y 7 * day)).
    { exists (month_first year_start y 4 * day), y, 4. rewrite !first_eq. split; [reflexivity|]. split; [cbn; tauto|]. split; [reflexivity|]. change (4 + 3) with 7. lia. }
    destruct (Z.ltb_spec t (month_first year_start y 10 * day)).
    { exists (month_first year_start y 7 * day), y, 7. rewrite !first_eq. split; [reflexivity|]. split; [cbn; tauto|]. split; [reflexivity|]. change (7 + 3) with 10. lia. }
    exists (month_first year_start y 10 * day), y, 10. rewrite !first_eq. split; [reflexivity|]. split; [cbn; tauto|]. split; [reflexivity|].
    change (10 + 3) with 13. lia.
  Qed.
  (* The Monday of its week; the first of January 2018 was a Monday. *)
  Theorem C121_week t : (400 <= n)%nat -> stamp t -> exists r d, Round n t PW = Ok r /\ r = midnight d /\ (7 | d - first 2018) /\ r <= t < midnight (d + 7).
  Proof.
    intros Hn T. unfold Round. rewrite (stamp_round t PW T). rewrite roundWeek_monday by exact Hn.
    exists (midnight (monday (dayno t))), (monday (dayno t)). split; [reflexivity|]. split; [reflexivity|].
    rewrite (calendar_unique first Hc). change (year_start 2018) with 737060. pose proof (dayno_spec t) as D. unfold midnight in *. pose proof day_pos.
    split; [apply Z.mod_divide; [discriminate|]; unfold monday; lia|].
    assert (B : monday (dayno t) <= dayno t < monday (dayno t) + 7) by (unfold monday; lia). nia.
  Qed.
  (* The start of its day, hour, minute, second. *)
  Theorem C121_clock t : stamp t ->
    (exists r, Round n t PD = Ok r /\ (exists k, r = k * day) /\ r <= t < r + day)
    /\ (exists r, Round n t Ph = Ok r /\ (exists k, r = k * (3600 * second)) /\ r <= t < r + 3600 * second)
    /\ (exists r, Round n t Pm = Ok r /\ (exists k, r = k * (60 * second)) /\ r <= t < r + 60 * second)
    /\ (exists r, Round n t Ps = Ok r /\ (exists k, r = k * second) /\ r <= t < r + second).
  Proof.
    intros T. unfold Round. rewrite !(stamp_round t PD T). rewrite !Date_day. pose proof (dayno_spec t) as D. pose proof (clock t) as (C1 & C2 & C3).
    unfold midnight in *. split; [|split; [|split]]; eexists; (split; [reflexivity|]); (split; [|unfold day, second in *; lia]).
    - exists (dayno t). lia.
    - exists (dayno t * 24 + Hour t). unfold day. lia.
    - exists (dayno t * 1440 + Hour t * 60 + Minute t). unfold day. lia.
    - exists (dayno t * 86400 + (Hour t * 60 + Minute t) * 60 + SecondT t). unfold day. lia.
  Qed.
End Round.
Print Assumptions C121_week.
Print Assumptions C121_quarter.
Example C121_example : calendar year_start /\ stamp (Date 2020 2 29 13 14 15 + 5)
  /\ Round 400 (Date 2020 2 29 13 14 15 + 5) PW = Ok (Date 2020 2 24 0 0 0)
  /\ Round 400 (Date 2021 1 3 13 14 15) PW = Ok (Date 2020 12 28 0 0 0)
  /\ Round 400 (Date 2020 5 31 13 14 15) PQ = Ok (Date 2020 4 1 0 0 0)
  /\ Round 400 (Date 2020 2 29 13 14 15 + 5) PM = Ok (Date 2020 2 1 0 0 0).
Proof. split; [exact year_start_calendar|]. vm_compute. repeat split. Qed.

(* ---------- C122: rounding of durations ---------- *)
Definition unit_of (p : period) : option Z :=
  match p with
  | Ph => Some 3600000000000 | Pm => Some 60000000000 | Ps => Some 1000000000
  | Pms => Some 1000000 | Pus => Some 1000 | Pns => Some 1 | _ => None
  end.
Lemma RoundD_spec d m : 0 < m < 2 ^ 62 -> - 2 ^ 63 + m <= d <= 2 ^ 63 - 1 - m ->
  let r := RoundD d m in (exists k, r = k * m) /\ 2 * Z.abs (r - d) <= m
  /\ (2 * Z.abs (r - d) = m -> Z.abs d < Z.abs r).
Proof.
  intros M B. cbv zeta. unfold RoundD. destruct (Z.leb_spec m 0); [lia|].
  pose proof (Z.quot_rem d m ltac:(lia)) as E. set (q := Z.quot d m) in *. set (r := Z.rem d m) in *.
  assert (R : Z.abs r < m /\ (0 <= d -> 0 <= r) /\ (d <= 0 -> r <= 0)).
  { unfold r. split; [pose proof (Z.rem_bound_abs d m ltac:(lia)); lia|]. split; intros H1.
    - apply Z.rem_nonneg; lia.
    - pose proof (Z.rem_nonpos d m). lia. }
  clearbody q r. unfold wrap.
  destruct (Z.ltb_spec d 0).
  - destruct (Z.ltb_spec (- r + - r) m).
    + split; [exists q; lia|]. lia.
    + assert (W : (d - m + - r + 2 ^ 63) mod 2 ^ 64 - 2 ^ 63 = d - m + - r) by (rewrite Z.mod_small by lia; lia).
      rewrite W. destruct (Z.ltb_spec (d - m + - r) d); [|lia]. split; [exists (q - 1); lia|]. lia.
  - destruct (Z.ltb_spec (r + r) m).
    + split; [exists q; lia|]. lia.
    + assert (W : (d + m - r + 2 ^ 63) mod 2 ^ 64 - 2 ^ 63 = d + m - r) by (rewrite Z.mod_small by lia; lia).
      rewrite W. destruct (Z.ltb_spec d (d + m - r)); [|lia]. split; [exists (q + 1); lia|]. lia.
Qed.
(* A duration is rounded to the nearest multiple of the unit, half of it away from zero. *)
Theorem C122_duration n d p m : unit_of p = Some m -> - 2 ^ 63 + m <= d <= 2 ^ 63 - 1 - m ->
  exists r, Round n d p = Ok r /\ (exists k, r = k * m) /\ 2 * Z.abs (r - d) <= m
    /\ (2 * Z.abs (r - d) = m -> Z.abs d < Z.abs r).
Proof.
  intros U B. assert (M : 0 < m < 2 ^ 62) by (destruct p; try discriminate U; injection U as <-; lia).
  destruct (RoundD_spec d m M B) as (R1 & R2 & R3).
  exists (RoundD d m). split; [|split; [exact R1|split; [exact R2|exact R3]]].
  unfold Round, Duration, Before. destruct (Z.ltb_spec d y1k); [|pose proof y1k_big; lia].
  assert (S : SubT d y0 = d) by (unfold SubT, y0, minD, maxD; lia). rewrite S.
  unfold roundDuration, AddT, y0. destruct p; try discriminate U; injection U as <-; f_equal; unfold second; cbn [Z.mul Pos.mul Pos.add]; lia.
Qed.
(* other periods are refused: a duration has no years, a stamp no fractions of a second *)
Theorem C122_refused n t p : (duration t /\ unit_of p = None) \/ (stamp t /\ In p [Pms; Pus; Pns; POther]) -> Round n t p = Err.
Proof.
  pose proof y1k_big. intros [[D U]|[S I]]; unfold Round, Duration, Before, duration, stamp in *; destruct (Z.ltb_spec t y1k); try lia.
  - destruct p; try discriminate U; reflexivity.
  - destruct I as [<-|[<-|[<-|[<-|[]]]]]; reflexivity.
Qed.
Print Assumptions C122_duration.
Example C122_example : Round 0 (90 * second) Pm = Ok (120 * second) /\ Round 0 (- (90 * second)) Pm = Ok (- (120 * second))
  /\ Round 0 (89 * second) Pm = Ok (60 * second) /\ Round 0 (89 * second) PY = Err.
Proof. vm_compute. repeat split. Qed.
