(* P_TimeText3.v -- the layouts of time stamps. *)
From Verif Require Import Base M_Scan M_Format P_Format P_Format2 P_Format3 M_Time S_Time P_Time M_TimeText S_TimeText P_TimeText P_TimeText2.
Open Scope Z_scope.
Ltac Zify.zify_post_hook ::= Z.to_euclidean_division_equations.

Lemma digit2_ok a b : 48 <= a <= 57 -> 48 <= b <= 57 -> digit2 a b = Some ((a - 48) * 10 + (b - 48)).
Proof. intros Ha Hb. unfold digit2. rewrite !isdigit_true by assumption. reflexivity. Qed.
Lemma numeral2_inv n s : numeral 2 n s -> exists a b, s = [a; b] /\ 48 <= a <= 57 /\ 48 <= b <= 57 /\ n = (a - 48) * 10 + (b - 48).
Proof.
  intros (L & F & V). destruct s as [|a [|b [|c s]]]; try (unfold zlen in L; cbn in L; lia). exists a, b. inversion F as [|? ? Ha F1]; subst. inversion F1 as [|? ? Hb F2]; subst.
  split; [reflexivity|]. split; [exact Ha|]. split; [exact Hb|]. unfold value. cbn [fold_left]. lia.
Qed.
Lemma fixed2_numeral n s rest : numeral 2 n s -> fixed2 (s ++ rest) = Some (n, rest).
Proof. intros H. destruct (numeral2_inv n s H) as (a & b & -> & Ha & Hb & ->). cbn [app fixed2]. rewrite digit2_ok by assumption. reflexivity. Qed.
Lemma oneOrTwo_numeral n s rest : numeral 2 n s -> oneOrTwo (s ++ rest) = Some (n, rest).
Proof. intros H. destruct (numeral2_inv n s H) as (a & b & -> & Ha & Hb & ->). cbn [app oneOrTwo]. rewrite digit2_ok by assumption. rewrite !isdigit_true by assumption. reflexivity. Qed.
Lemma year4_numeral n s rest : numeral 4 n s -> year4 (s ++ rest) = Some (n, rest).
Proof.
  intros (L & F & V). destruct s as [|a [|b [|c [|e [|x s]]]]]; try (unfold zlen in L; cbn in L; lia).
  inversion F as [|? ? Ha F1]; subst. inversion F1 as [|? ? Hb F2]; subst. inversion F2 as [|? ? Hc F3]; subst. inversion F3 as [|? ? He F4]; subst.
  cbn [app year4]. rewrite !digit2_ok by assumption. unfold value. cbn [fold_left]. f_equal. f_equal. lia.
Qed.
Lemma pad2_numeral n : 0 <= n < 100 -> numeral 2 n (pad2 n).
Proof. intros H. unfold pad2, numeral, value. cbn [fold_left]. split; [reflexivity|]. split; [repeat constructor; lia|lia]. Qed.
Lemma pad3_numeral n : 0 <= n < 1000 -> numeral 3 n (pad3 n).
Proof. intros H. unfold pad3, numeral, value. cbn [fold_left]. split; [reflexivity|]. split; [repeat constructor; lia|lia]. Qed.
Lemma pad4_numeral n : 0 <= n < 10000 -> numeral 4 n (pad4 n).
Proof. intros H. unfold pad4. destruct (Z.ltb_spec n 10000); [|lia]. unfold numeral, value. cbn [fold_left]. split; [reflexivity|]. split; [repeat constructor; lia|lia]. Qed.

Lemma ymd_numerals y m d sy sm sd rest : numeral 4 y sy -> numeral 2 m sm -> numeral 2 d sd ->
  ymd (sy ++ [46] ++ sm ++ [46] ++ sd ++ rest) = if (1 <=? m) && (m <=? 12) then Some (y, m, d, rest) else None.
Proof.
  intros Hy Hm Hd. unfold ymd. rewrite (year4_numeral y sy _ Hy). cbn [app skipc]. change (46 =? c_point) with true. cbv iota.
  rewrite (fixed2_numeral m sm _ Hm). destruct (_ && _); [|reflexivity]. cbn [skipc]. change (46 =? c_point) with true. cbv iota. rewrite (fixed2_numeral d sd _ Hd). reflexivity.
Qed.
Lemma ymd_fails ds c rest : Forall (fun c => 48 <= c <= 57) ds -> ~ (48 <= c <= 57) -> (c = c_point -> length ds <> 4%nat) -> ymd (ds ++ c :: rest) = None.
Proof.
  intros F Hc Hp. unfold ymd. pose proof (isdigit_false c Hc) as Nc.
  assert (G : forall x, 48 <= x <= 57 -> (x =? c_point) = false) by (intros x K; unfold c_point; lia).
  assert (D2 : forall x, digit2 x c = None /\ digit2 c x = None) by (intros x; unfold digit2; rewrite Nc, Bool.andb_false_r; auto).
  destruct ds as [|a [|b [|e [|g ds]]]]; cbn [app].
  - unfold year4. destruct rest as [|? [|? [|? ?]]]; try reflexivity. rewrite (proj2 (D2 _)). reflexivity.
  - unfold year4. destruct rest as [|? [|? ?]]; try reflexivity. rewrite (proj1 (D2 _)). reflexivity.
  - unfold year4. destruct rest as [|? ?]; try reflexivity. rewrite (proj2 (D2 _)). destruct (digit2 a b); reflexivity.
  - unfold year4. rewrite (proj1 (D2 _)). destruct (digit2 a b); reflexivity.
  - unfold year4. inversion F as [|? ? _ F1]; subst. inversion F1 as [|? ? _ F2]; subst. inversion F2 as [|? ? _ F3]; subst. inversion F3 as [|? ? _ F4]; subst.
    destruct (digit2 a b); [|reflexivity]. destruct (digit2 e g); [|reflexivity]. destruct ds as [|x ds].
    + cbn [app skipc]. destruct (Z.eqb_spec c c_point) as [E|_]; [exfalso; apply (Hp E); reflexivity|reflexivity].
    + inversion F4 as [|? ? Hx _]; subst. cbn [app skipc]. rewrite (G x Hx). reflexivity.
Qed.
Lemma layouts_fail s : ymd s = None -> layout_date s = None /\ layout_minute s = None /\ layout_second s = None.
Proof. intros E. unfold layout_date, layout_minute, layout_second. rewrite E. auto. Qed.
Lemma decimal_len n : 0 <= n < 1000 -> (length (decimal n) <= 3)%nat.
Proof.
  intros H. unfold decimal. change 20%nat with (S (S (S 17))). cbn [digits_of].
  destruct (Z.ltb_spec n 10); [cbn; lia|]. destruct (Z.ltb_spec (n / 10) 10); [cbn; lia|]. destruct (Z.ltb_spec (n / 10 / 10) 10); [cbn; lia|lia].
Qed.
Lemma dtext_shape u : 0 < u <= maxInt -> exists v c r, DurationString u = decimal v ++ c :: r /\ ~ (48 <= c <= 57) /\ (c = c_point -> length (decimal v) <> 4%nat) /\ 0 <= v < 10 ^ 20.
Proof.
  intros Hu. unfold DurationString. destruct (Z.ltb_spec u 0) as [K|_]; [lia|]. rewrite Z.abs_eq by lia. destruct (Z.eqb_spec u 0) as [K|_]; [lia|].
  assert (X : forall v D t, 0 <= v < 1000 -> (exists c0 t0, t = c0 :: t0 /\ unitc c0 = true) ->
    exists c r, decimal v ++ point_digits D ++ t = decimal v ++ c :: r /\ ~ (48 <= c <= 57) /\ (c = c_point -> length (decimal v) <> 4%nat)).
  { intros v D t Hv (c0 & t0 & -> & Hc0). pose proof (decimal_len v Hv) as L. destruct D as [|d0 D]; cbn [point_digits app].
    - exists c0, t0. split; [reflexivity|]. split; [|lia]. intros K. unfold unitc in Hc0. rewrite (isdigit_true _ K), Bool.orb_true_r in Hc0. discriminate.
    - exists c_point. eexists. split; [reflexivity|]. split; [unfold c_point; lia|lia]. }
  destruct (Z.ltb_spec u 1000000000) as [Hs|Hs].
  - assert (R : exists p un, (if u <? 1000 then (0%nat, [c_n]) else if u <? 1000000 then (3%nat, [c_micro]) else (6%nat, [c_m])) = (p, un) /\
       0 <= u / 10 ^ Z.of_nat p < 1000 /\ exists c0 t0, un ++ [c_s] = c0 :: t0 /\ unitc c0 = true).
    { destruct (Z.ltb_spec u 1000); [|destruct (Z.ltb_spec u 1000000)]; do 2 eexists; (split; [reflexivity|]); split;
        try (do 2 eexists; split; reflexivity).
      - change (10 ^ Z.of_nat 0) with 1. lia.
      - change (10 ^ Z.of_nat 3) with 1000. lia.
      - change (10 ^ Z.of_nat 6) with 1000000. lia. }
    destruct R as (p & un & -> & Hv & Hun). destruct (frac_spec p u ltac:(lia)) as (D & E1 & E2 & _). destruct (fmtFrac p false u []) as [f v]. cbn [fst snd] in E1, E2. subst f v.
    destruct (X (u / 10 ^ Z.of_nat p) D (un ++ [c_s]) Hv Hun) as (c & r & E & A & B). exists (u / 10 ^ Z.of_nat p), c, r. split; [exact E|]. split; [exact A|]. split; [exact B|]. lia.
  - destruct (frac_spec 9 u ltac:(lia)) as (D & E1 & E2 & F & L & V). destruct (fmtFrac 9 false u []) as [f w]. cbn [fst snd] in E1, E2. subst f. fold (point_digits D).
    change (10 ^ Z.of_nat 9) with 1000000000 in E1. pose proof dsmall. unfold maxInt in Hu.
    destruct (Z.eqb_spec (w / 60) 0) as [M0|M0].
    { destruct (X (w mod 60) D [c_s] ltac:(lia) ltac:(do 2 eexists; split; reflexivity)) as (c & r & E & A & B). exists (w mod 60), c, r. split; [exact E|]. split; [exact A|]. split; [exact B|]. lia. }
    destruct (Z.eqb_spec (w / 60 / 60) 0) as [H0|H0].
    { do 3 eexists. split; [reflexivity|]. split; [unfold c_m; lia|]. split; [discriminate|]. lia. }
    do 3 eexists. split; [reflexivity|]. split; [unfold c_h; lia|]. split; [discriminate|]. lia.
Qed.
(* the characters of a duration *)
Definition dchar (c : Z) : Prop := 48 <= c <= 57 \/ In c [c_point; c_h; c_m; c_s; c_n].
Lemma dig_dchar l : Forall (fun c => 48 <= c <= 57) l -> Forall dchar l.
Proof. apply Forall_impl. intros c H. left. exact H. Qed.
Lemma dtext_chars u : 0 < u <= maxInt -> (1000 <= u < 1000000 -> In c_micro (DurationString u)) /\
  Forall (fun c => dchar c \/ (c = c_micro /\ 1000 <= u < 1000000)) (DurationString u).
Proof.
  intros Hu. unfold DurationString. destruct (Z.ltb_spec u 0) as [K|_]; [lia|]. rewrite Z.abs_eq by lia. destruct (Z.eqb_spec u 0) as [K|_]; [lia|].
  assert (Im : forall l, Forall dchar l -> Forall (fun c => dchar c \/ (c = c_micro /\ 1000 <= u < 1000000)) l) by (intros l; apply Forall_impl; auto).
  assert (PD : forall D, Forall (fun c => 48 <= c <= 57) D -> Forall dchar (point_digits D)).
  { intros D F. destruct D; [constructor|]. cbn [point_digits]. constructor; [right; cbn; auto|apply dig_dchar; exact F]. }
  assert (Dc : forall v, Forall dchar (decimal v)) by (intros v; apply dig_dchar, decimal_digits).
  assert (C1 : dchar c_s /\ dchar c_m /\ dchar c_h /\ dchar c_n) by (unfold dchar; cbn; auto 20). destruct C1 as (Cs & Cm & Ch & Cn).
  assert (One : forall (P : Z -> Prop) x, P x -> Forall P [x]) by (intros P x Hx; constructor; [exact Hx|constructor]).
  destruct (Z.ltb_spec u 1000000000) as [Hs|Hs].
  - destruct (Z.ltb_spec u 1000); [|destruct (Z.ltb_spec u 1000000)].
    + destruct (frac_spec 0 u ltac:(lia)) as (D & E1 & E2 & F & _). destruct (fmtFrac 0 false u []) as [f v]. cbn [fst snd] in E1, E2. subst f. fold (point_digits D).
      split; [lia|]. apply Im. apply Forall_app; split; [apply Dc|]. apply Forall_app; split; [apply PD; exact F|]. apply Forall_app; split; apply One; assumption.
    + destruct (frac_spec 3 u ltac:(lia)) as (D & E1 & E2 & F & _). destruct (fmtFrac 3 false u []) as [f v]. cbn [fst snd] in E1, E2. subst f. fold (point_digits D).
      split; [intros _; rewrite !in_app_iff; cbn; auto|]. apply Forall_app; split; [apply Im, Dc|]. apply Forall_app; split; [apply Im, PD; exact F|]. apply Forall_app; split; apply One; [right; split; [reflexivity|lia]|left; assumption].
    + destruct (frac_spec 6 u ltac:(lia)) as (D & E1 & E2 & F & _). destruct (fmtFrac 6 false u []) as [f v]. cbn [fst snd] in E1, E2. subst f. fold (point_digits D).
      split; [lia|]. apply Im. apply Forall_app; split; [apply Dc|]. apply Forall_app; split; [apply PD; exact F|]. apply Forall_app; split; apply One; assumption.
  - split; [lia|]. apply Im. destruct (frac_spec 9 u ltac:(lia)) as (D & E1 & E2 & F & _). destruct (fmtFrac 9 false u []) as [f w]. cbn [fst snd] in E1, E2. subst f. fold (point_digits D).
    assert (Sc : Forall dchar (decimal (w mod 60) ++ point_digits D ++ [c_s])) by (apply Forall_app; split; [apply Dc|]; apply Forall_app; split; [apply PD; exact F|apply One; exact Cs]).
    destruct (w / 60 =? 0); [exact Sc|]. assert (Mi : Forall dchar (decimal (w / 60 mod 60) ++ c_m :: decimal (w mod 60) ++ point_digits D ++ [c_s])) by (apply Forall_app; split; [apply Dc|constructor; [exact Cm|exact Sc]]).
    destruct (w / 60 / 60 =? 0); [exact Mi|]. apply Forall_app; split; [apply Dc|constructor; [exact Ch|exact Mi]].
Qed.
Lemma DurationString_neg u : 0 < u -> DurationString (- u) = c_minus :: DurationString u.
Proof.
  intros H. unfold DurationString. rewrite Z.abs_opp. destruct (Z.ltb_spec (- u) 0) as [_|K]; [|lia]. destruct (Z.ltb_spec u 0) as [K|_]; [lia|]. reflexivity.
Qed.
Lemma macron_back s : ~ In c_high s -> macron (to_macron s) = s.
Proof.
  induction s as [|c r IH]; intros N; [reflexivity|]. unfold macron, to_macron in *. cbn [map]. rewrite IH by (intros K; apply N; right; exact K). f_equal.
  destruct (Z.eqb_spec c c_minus) as [->|_]; [reflexivity|]. destruct (Z.eqb_spec c c_high) as [->|_]; [exfalso; apply N; left; reflexivity|reflexivity].
Qed.
Lemma macron_none s : ~ In c_high s -> macron s = s.
Proof.
  induction s as [|c r IH]; intros N; [reflexivity|]. unfold macron in *. cbn [map]. rewrite IH by (intros K; apply N; right; exact K). f_equal.
  destruct (Z.eqb_spec c c_high) as [->|_]; [exfalso; apply N; left; reflexivity|reflexivity].
Qed.
Lemma duration_back d : - 2 ^ 63 < d < 2 ^ 63 -> ParseTime (to_macron (DurationString d)) = Some d.
Proof.
  intros Hd. destruct (Z.eq_dec d 0) as [->|N0]; [vm_compute; reflexivity|].
  set (u := Z.abs d). assert (Hu : 0 < u <= maxInt) by (unfold u, maxInt; lia).
  destruct (dtext_chars u Hu) as [_ C]. destruct (dtext_shape u Hu) as (v & c & r & E & Hc & Hp & Hv). destruct (dtext_parse u Hu) as (n & Ln & Pn).
  assert (NH : ~ In c_high (DurationString u)).
  { intros I. apply (proj1 (Forall_forall _ _) C) in I. destruct I as [[I|I]|[I _]]; [unfold c_high in I; lia| |discriminate I]. cbn in I. unfold c_point, c_h, c_m, c_s, c_n, c_high in I. lia. }
  destruct (decimal_nonempty v Hv) as (c0 & l0 & E0 & Hc0). set (s := DurationString u) in *.
  assert (Full : parseUnits (length s) 0 s = Some u) by (apply (parseUnits_more n); [exact Ln|exact Pn]).
  assert (S0 : s = c0 :: (l0 ++ c :: r)) by (rewrite E, E0; reflexivity).
  assert (N48 : s <> [48]) by (rewrite S0; intros K; injection K as _ K; destruct l0; discriminate K).
  assert (M : match s with [] => None | _ => parseUnits (length s) 0 s end = Some u) by (rewrite S0; rewrite S0 in Full; exact Full).
  destruct (Z.lt_ge_cases d 0) as [Dn|Dn].
  - replace d with (- u) at 1 by (unfold u; lia). rewrite DurationString_neg by lia. fold s.
    unfold ParseTime. rewrite macron_back by (intros [I|I]; [discriminate I|exact (NH I)]).
    assert (Y : ymd (c_minus :: s) = None) by (apply (ymd_fails [] c_minus s); [constructor|unfold c_minus; lia|discriminate]).
    destruct (layouts_fail _ Y) as (-> & -> & ->). unfold ParseDuration. cbn [orb]. change ((c_minus =? c_minus) || (c_minus =? c_plus)) with true. change (c_minus =? c_minus) with true. cbv iota.
    destruct (list_eq_dec Z.eq_dec s [48]) as [K|_]; [contradiction|]. rewrite S0. rewrite <- S0. rewrite Full. cbn [option_map]. unfold AddT, y0. f_equal. unfold u. lia.
  - assert (Eu : u = d) by (unfold u; lia). unfold s in *. rewrite Eu in *. set (s0 := DurationString d) in *.
    unfold ParseTime. rewrite macron_back by exact NH.
    assert (Y : ymd s0 = None) by (rewrite E; apply ymd_fails; [apply decimal_digits|exact Hc|exact Hp]).
    destruct (layouts_fail _ Y) as (-> & -> & ->). unfold ParseDuration. rewrite S0. assert (Q : (c0 =? c_minus) || (c0 =? c_plus) = false) by (unfold c_minus, c_plus; lia). rewrite Q. rewrite <- S0.
    destruct (list_eq_dec Z.eq_dec s0 [48]) as [K|_]; [contradiction|]. rewrite S0. rewrite <- S0. rewrite Full. cbn [option_map]. unfold AddT, y0. f_equal.
Qed.
