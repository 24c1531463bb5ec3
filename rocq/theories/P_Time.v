(* P_Time.v -- lemmas about times and the calendar. *)
From Coq Require Import Lia ZArith Znumtheory.
From Verif Require Import Base M_Time S_Time.
Ltac Zify.zify_post_hook ::= Z.to_euclidean_division_equations.

Lemma leap_iff y : is_leap y = true <-> leap_year y.
Proof.
  unfold is_leap, leap_year. rewrite !Bool.andb_true_iff, Bool.orb_true_iff, Bool.negb_true_iff, !Z.eqb_eq, Z.eqb_neq.
  rewrite <- !Z.mod_divide by discriminate. reflexivity.
Qed.
Lemma year_start_next y : year_start (y + 1) = year_start y + (if is_leap y then 366 else 365).
Proof.
  unfold year_start, is_leap.
  destruct (Z.eqb_spec (y mod 4) 0), (Z.eqb_spec (y mod 100) 0), (Z.eqb_spec (y mod 400) 0); cbn [andb orb negb]; lia.
Qed.
Lemma year_start_calendar : calendar year_start.
Proof.
  split; [reflexivity|]. intros y. rewrite year_start_next, <- leap_iff. destruct (is_leap y); split; intros H; try lia; try reflexivity; congruence.
Qed.
Lemma calendar_unique first : calendar first -> forall y, first y = year_start y.
Proof.
  intros (F0 & F).
  assert (S : forall y, first (y + 1) - first y = year_start (y + 1) - year_start y).
  { intros y. rewrite year_start_next. destruct (F y) as [A B]. destruct (is_leap y) eqn:E.
    - rewrite A by (apply leap_iff; exact E). lia.
    - rewrite B by (rewrite <- leap_iff; congruence). lia. }
  assert (P : forall n : nat, first (Z.of_nat n) = year_start (Z.of_nat n) /\ first (- Z.of_nat n) = year_start (- Z.of_nat n)).
  { induction n as [|n [I J]]; [split; [exact F0|exact F0]|]. split.
    - specialize (S (Z.of_nat n)). rewrite Nat2Z.inj_succ, <- Z.add_1_r. lia.
    - specialize (S (- Z.of_nat (Datatypes.S n))). rewrite Nat2Z.inj_succ in *.
      replace (- Z.succ (Z.of_nat n) + 1) with (- Z.of_nat n) in S by lia. lia. }
  intros y. destruct (Z.le_ge_cases 0 y) as [H|H].
  - rewrite <- (Z2Nat.id y H). apply P.
  - replace y with (- Z.of_nat (Z.to_nat (- y))) by lia. apply P.
Qed.

Lemma year_of_spec n : year_start (year_of n) <= n < year_start (year_of n + 1).
Proof.
  unfold year_of. set (y := n * 400 / 146097).
  assert (Hy : 146097 * y <= n * 400 < 146097 * y + 146097) by (unfold y; lia). clearbody y.
  destruct (Z.ltb_spec n (year_start y)) as [H|H].
  - replace (y - 1 + 1) with y by lia. split; [|exact H]. clear H. unfold year_start. lia.
  - destruct (Z.leb_spec (year_start (y + 1)) n) as [H1|H1]; [|split; assumption].
    split; [exact H1|]. clear H H1. unfold year_start. lia.
Qed.
Lemma year_start_mono a b : a <= b -> year_start a <= year_start b.
Proof. intros H. unfold year_start. lia. Qed.
Lemma year_of_unique n y : year_start y <= n < year_start (y + 1) -> year_of n = y.
Proof.
  intros H. pose proof (year_of_spec n) as S.
  destruct (Z.lt_trichotomy (year_of n) y) as [L|[E|L]]; [|exact E|].
  - pose proof (year_start_mono (year_of n + 1) y). lia.
  - pose proof (year_start_mono (y + 1) (year_of n)). lia.
Qed.
Lemma year_of_mono a b : a <= b -> year_of a <= year_of b.
Proof.
  intros H. pose proof (year_of_spec a). pose proof (year_of_spec b).
  destruct (Z.le_gt_cases (year_of a) (year_of b)) as [L|L]; [exact L|].
  pose proof (year_start_mono (year_of b + 1) (year_of a)). lia.
Qed.

Lemma month_of_spec (leap : bool) (d : Z) : 0 <= d < 365 + (if leap then 1 else 0) ->
  1 <= month_of leap d <= 12 /\ month_start leap (month_of leap d) <= d < month_start leap (month_of leap d + 1).
Proof.
  set (chk := fun (l : bool) (d : Z) => let m := month_of l d in (1 <=? m) && (m <=? 12) && (month_start l m <=? d) && (d <? month_start l (m + 1))).
  assert (C1 : forallb (chk true) (zseq 366) = true) by (vm_compute; reflexivity).
  assert (C2 : forallb (chk false) (zseq 365) = true) by (vm_compute; reflexivity).
  rewrite forallb_forall in C1, C2. intros H.
  assert (G : chk leap d = true). { destruct leap; [apply C1|apply C2]; apply In_zseq; lia. }
  unfold chk in G. cbv zeta in G. rewrite !Bool.andb_true_iff in G. destruct G as (((G1 & G2) & G3) & G4).
  apply Z.leb_le in G1, G2, G3. apply Z.ltb_lt in G4. lia.
Qed.
Lemma month_first_start y m : 1 <= m <= 13 -> month_first year_start y m = year_start y + month_start (is_leap y) m.
Proof.
  intros H. unfold month_first. f_equal. rewrite year_start_next.
  assert (M : m = 1 \/ m = 2 \/ m = 3 \/ m = 4 \/ m = 5 \/ m = 6 \/ m = 7 \/ m = 8 \/ m = 9 \/ m = 10 \/ m = 11 \/ m = 12 \/ m = 13) by lia.
  destruct (is_leap y).
  - replace (year_start y + 366 - year_start y - 337) with 29 by lia. repeat destruct M as [->|M]; try subst m; reflexivity.
  - replace (year_start y + 365 - year_start y - 337) with 28 by lia. repeat destruct M as [->|M]; try subst m; reflexivity.
Qed.
Lemma month_first_13 y : month_first year_start y 13 = year_start (y + 1).
Proof. rewrite month_first_start by lia. rewrite year_start_next. destruct (is_leap y); reflexivity. Qed.

Lemma Date_in y m d h mi s : 1 <= m <= 12 ->
  Date y m d h mi s = (month_first year_start y m + d - 1) * day + ((h * 60 + mi) * 60 + s) * second.
Proof.
  intros H. rewrite month_first_start by lia. unfold Date. replace ((m - 1) / 12) with 0 by lia.
  replace ((m - 1) mod 12 + 1) with m by lia. rewrite Z.add_0_r. reflexivity.
Qed.

(* the parts of a time *)
Lemma day_pos : 0 < day. Proof. reflexivity. Qed.
Lemma dayno_spec t : midnight (dayno t) <= t < midnight (dayno t + 1).
Proof. unfold midnight, dayno. pose proof (Z.div_mod t day ltac:(discriminate)). pose proof (Z.mod_pos_bound t day day_pos). lia. Qed.
Lemma date_parts t : 1 <= MonthT t <= 12
  /\ month_first year_start (YearT t) (MonthT t) <= dayno t < month_first year_start (YearT t) (MonthT t + 1)
  /\ month_first year_start (YearT t) (MonthT t) + DayT t - 1 = dayno t.
Proof.
  pose proof (year_of_spec (dayno t)) as Y. fold (YearT t) in Y.
  assert (B : 0 <= YearDay t < 365 + (if is_leap (YearT t) then 1 else 0)).
  { unfold YearDay. rewrite year_start_next in Y. destruct (is_leap (YearT t)); lia. }
  destruct (month_of_spec _ _ B) as (M1 & M2). fold (MonthT t) in M1, M2.
  rewrite !month_first_start by lia. unfold DayT. unfold YearDay in *. lia.
Qed.
Lemma Date_day t h mi s : Date (YearT t) (MonthT t) (DayT t) h mi s = midnight (dayno t) + ((h * 60 + mi) * 60 + s) * second.
Proof.
  destruct (date_parts t) as (M1 & _ & E). rewrite Date_in by exact M1. rewrite E. reflexivity.
Qed.
Lemma clock t :
  midnight (dayno t) + Hour t * 3600 * second <= t < midnight (dayno t) + (Hour t + 1) * 3600 * second
  /\ midnight (dayno t) + (Hour t * 60 + Minute t) * 60 * second <= t < midnight (dayno t) + (Hour t * 60 + Minute t + 1) * 60 * second
  /\ midnight (dayno t) + ((Hour t * 60 + Minute t) * 60 + SecondT t) * second <= t < midnight (dayno t) + ((Hour t * 60 + Minute t) * 60 + SecondT t + 1) * second.
Proof.
  unfold midnight, dayno, Hour, Minute, SecondT, day, second.
  assert (H : forall q, 86400 * 1000000000 * q = q * (86400 * 1000000000)) by (intros; lia).
  lia.
Qed.

(* ---------- weeks ---------- *)
Lemma while_up c : forall (k : nat) n d, (k <= n)%nat -> (forall i, (i < k)%nat -> c (d + Z.of_nat i) = true) ->
  c (d + Z.of_nat k) = false -> while_day n c 1 d = Some (d + Z.of_nat k).
Proof.
  induction k as [|k IH]; intros n d L H E.
  - rewrite Z.add_0_r in *. destruct n; cbn [while_day]; rewrite E; reflexivity.
  - destruct n as [|n]; [lia|]. pose proof (H 0%nat ltac:(lia)) as H0. rewrite Z.add_0_r in H0. cbn [while_day]. rewrite H0.
    rewrite (IH n (d + 1)); [f_equal; lia|lia| |].
    + intros i Li. replace (d + 1 + Z.of_nat i) with (d + Z.of_nat (S i)) by lia. apply H. lia.
    + replace (d + 1 + Z.of_nat k) with (d + Z.of_nat (S k)) by lia. exact E.
Qed.
Lemma while_down c : forall (k : nat) n d, (k <= n)%nat -> (forall i, (i < k)%nat -> c (d - Z.of_nat i) = true) ->
  c (d - Z.of_nat k) = false -> while_day n c (-1) d = Some (d - Z.of_nat k).
Proof.
  induction k as [|k IH]; intros n d L H E.
  - rewrite Z.sub_0_r in *. destruct n; cbn [while_day]; rewrite E; reflexivity.
  - destruct n as [|n]; [lia|]. pose proof (H 0%nat ltac:(lia)) as H0. rewrite Z.sub_0_r in H0. cbn [while_day]. rewrite H0.
    rewrite (IH n (d + -1)); [f_equal; lia|lia| |].
    + intros i Li. replace (d + -1 - Z.of_nat i) with (d - Z.of_nat (S i)) by lia. apply H. lia.
    + replace (d + -1 - Z.of_nat k) with (d - Z.of_nat (S k)) by lia. exact E.
Qed.
(* the Monday and the Thursday of the week of a day *)
Definition monday (n : Z) : Z := n - (n + 5) mod 7.
Definition thursday (n : Z) : Z := monday n + 3.
Lemma ISOWeek_thursday n : ISOWeek n = (year_of (thursday n), (thursday n - year_start (year_of (thursday n))) / 7 + 1).
Proof.
  unfold ISOWeek. cbv zeta.
  assert (E : n + (if 4 - weekday n =? 4 then -3 else 4 - weekday n) = thursday n).
  { unfold thursday, monday, weekday. destruct (Z.eqb_spec (4 - (n + 6) mod 7) 4); lia. }
  rewrite E. reflexivity.
Qed.
Lemma monday_idem n : monday (monday n) = monday n. Proof. unfold monday. lia. Qed.
Lemma Date_nov30 year : Date year 0 0 0 0 0 / day = year_start year - 32.
Proof.
  unfold Date. cbv zeta. replace ((0 - 1) / 12) with (-1) by reflexivity. replace ((0 - 1) mod 12 + 1) with 12 by reflexivity.
  replace (month_start (is_leap (year + -1)) 12) with (334 + (if is_leap (year + -1) then 1 else 0)) by (destruct (is_leap _); reflexivity).
  pose proof (year_start_next (year + -1)) as E. replace (year + -1 + 1) with year in E by lia.
  replace ((0 * 60 + 0) * 60 + 0) with 0 by reflexivity. rewrite Z.mul_0_l, Z.add_0_r, Z.div_mul by discriminate.
  destruct (is_leap (year + -1)); lia.
Qed.
Lemma roundWeek_monday n t : (400 <= n)%nat ->
  roundWeek n (fst (ISOWeek t)) (snd (ISOWeek t)) = Some (midnight (monday t)).
Proof.
  intros Hn. rewrite ISOWeek_thursday. cbn [fst snd]. set (y := year_of (thursday t)). set (w := (thursday t - year_start y) / 7 + 1).
  unfold roundWeek. rewrite Date_nov30. pose proof (year_of_spec (thursday t)) as Y. fold y in Y.
  pose proof (year_start_next (y - 1)) as Yp. replace (y - 1 + 1) with y in Yp by lia.
  (* to the Monday before *)
  set (d0 := year_start y - 32). set (k0 := (d0 + 5) mod 7).
  assert (K0 : 0 <= k0 < 7) by (unfold k0; lia).
  rewrite (while_down _ (Z.to_nat k0)); [|lia| |].
  2: { intros i Li. unfold weekday. apply Bool.negb_true_iff, Z.eqb_neq. unfold k0 in *. clearbody d0. lia. }
  2: { unfold weekday. apply Bool.negb_false_iff, Z.eqb_eq. unfold k0 in *. clearbody d0. lia. }
  rewrite Z2Nat.id by lia. replace (d0 - k0) with (monday d0) by reflexivity.
  (* to the first week *)
  set (M1 := monday (year_start y + 3)).
  assert (HM : year_start y - 3 <= M1 <= year_start y + 3) by (unfold M1, monday; lia).
  assert (Hd : year_start y - 38 <= monday d0 <= year_start y - 32) by (unfold monday, d0; lia).
  rewrite (while_up _ (Z.to_nat (M1 - monday d0))); [|lia| |].
  2: { intros i Li. rewrite ISOWeek_thursday. cbn [fst]. apply Z.ltb_lt.
       assert (T : thursday (monday d0 + Z.of_nat i) < year_start y).
       { unfold thursday. assert (E : monday (monday d0 + Z.of_nat i) < M1); [|unfold M1 in *; unfold monday in *; lia].
         unfold M1, monday in *. clearbody d0. lia. }
       destruct (Z.lt_ge_cases (year_of (thursday (monday d0 + Z.of_nat i))) y) as [L|L]; [exact L|].
       pose proof (year_start_mono _ _ L). pose proof (year_of_spec (thursday (monday d0 + Z.of_nat i))). lia. }
  2: { rewrite Z2Nat.id by lia. replace (monday d0 + (M1 - monday d0)) with M1 by lia. rewrite ISOWeek_thursday. cbn [fst].
       apply Z.ltb_ge. assert (T : year_start y <= thursday M1) by (unfold thursday, M1; rewrite monday_idem; unfold monday; lia).
       destruct (Z.le_gt_cases y (year_of (thursday M1))) as [L|L]; [exact L|].
       pose proof (year_start_mono (year_of (thursday M1) + 1) y). pose proof (year_of_spec (thursday M1)). lia. }
  rewrite Z2Nat.id by lia. replace (monday d0 + (M1 - monday d0)) with M1 by lia.
  (* to the week *)
  assert (MT : monday t = M1 + 7 * (w - 1)).
  { unfold w, M1, thursday, monday in *. lia. }
  assert (W : 1 <= w <= 53).
  { unfold w. rewrite year_start_next in Y. destruct (is_leap y); lia. }
  rewrite (while_up _ (Z.to_nat (7 * (w - 1)))); [|lia| |].
  - rewrite Z2Nat.id by lia. rewrite <- MT. reflexivity.
  - intros i Li. rewrite ISOWeek_thursday. cbn [snd]. apply Z.ltb_lt.
    assert (T : year_start y <= thursday (M1 + Z.of_nat i) < thursday t).
    { unfold thursday, monday in *. unfold M1, monday in *. lia. }
    rewrite (year_of_unique (thursday (M1 + Z.of_nat i)) y) by lia.
    unfold w in *. unfold thursday, monday in *. unfold M1, monday in *. lia.
  - rewrite Z2Nat.id by lia. rewrite <- MT, ISOWeek_thursday. cbn [snd]. unfold thursday. rewrite monday_idem. fold (thursday t). fold y. fold w.
    apply Z.ltb_ge. lia.
Qed.
