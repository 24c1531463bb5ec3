(* P_TimeText5.v -- printing time stamps, and which texts are time stamps. *)
From Verif Require Import Base M_Scan M_Format P_Format P_Format2 P_Format3 M_Time S_Time P_Time M_TimeText S_TimeText P_TimeText P_TimeText2 P_TimeText3 P_TimeText4.
Open Scope Z_scope.
Ltac Zify.zify_post_hook ::= Z.to_euclidean_division_equations.

Lemma year_range first t : calendar first -> y1k <= t < midnight (first 10000) -> 0 <= YearT t < 10000.
Proof.
  intros Hc [H1 H2]. rewrite (calendar_unique first Hc) in H2. pose proof (dayno_spec t) as D. unfold YearT. pose proof (year_of_spec (dayno t)) as Y.
  unfold midnight in *. assert (P : 0 < day) by reflexivity.
  assert (A : 365243 <= dayno t) by (unfold y1k in H1; nia). assert (B : dayno t < year_start 10000) by nia.
  split.
  - destruct (Z.le_gt_cases 0 (year_of (dayno t))) as [|K]; [assumption|]. pose proof (year_start_mono (year_of (dayno t) + 1) 0 ltac:(lia)) as Q. change (year_start 0) with 0 in Q. lia.
  - destruct (Z.lt_ge_cases (year_of (dayno t)) 10000) as [|K]; [assumption|]. pose proof (year_start_mono 10000 (year_of (dayno t)) K). lia.
Qed.
Lemma clock_ranges t : 0 <= Hour t < 24 /\ 0 <= Minute t < 60 /\ 0 <= SecondT t < 60.
Proof. unfold Hour, Minute, SecondT, day, second. lia. Qed.
Lemma printed first t : calendar first -> y1k <= t < midnight (first 10000) ->
  exists y m d h mi sec ms sd sc, StampString t = sd ++ sc /\ date_text y m d sd /\ clock_text h mi sec (ms * 1000000) sc
    /\ real_day first y m d /\ h < 24 /\ mi < 60 /\ sec < 60 /\ moment first y m d h mi sec (ms * 1000000) = t - t mod 1000000.
Proof.
  intros Hc Ht. pose proof (year_range first t Hc Ht) as Hy. destruct (date_parts t) as (Hm & Hd1 & Hd2). destruct (clock_ranges t) as (Rh & Rm & Rs). destruct (clock t) as (_ & _ & C3).
  assert (FE : forall k, month_first first (YearT t) k = month_first year_start (YearT t) k) by (intros k; unfold month_first; rewrite !(calendar_unique first Hc); reflexivity).
  set (ms := t mod second / 1000000). assert (Hms : 0 <= ms < 1000) by (unfold ms, second; lia).
  assert (RD : real_day first (YearT t) (MonthT t) (DayT t)) by (unfold real_day; rewrite !FE; lia).
  assert (Hd : 0 <= DayT t < 100).
  { destruct RD as (_ & RD). rewrite !FE in RD. rewrite !month_first_start in RD by lia. clear - RD Hm.
    assert (DM : forall m, 1 <= m <= 12 -> month_start (is_leap (YearT t)) (m + 1) - month_start (is_leap (YearT t)) m <= 31).
    { intros m K. assert (I : In m [1;2;3;4;5;6;7;8;9;10;11;12]) by (cbn; lia). cbn in I. destruct (is_leap (YearT t)); repeat (destruct I as [<-|I]; [vm_compute; discriminate|]); destruct I. }
    specialize (DM _ Hm). lia. }
  exists (YearT t), (MonthT t), (DayT t), (Hour t), (Minute t), (SecondT t), ms.
  exists (pad4 (YearT t) ++ [46] ++ pad2 (MonthT t) ++ [46] ++ pad2 (DayT t)), ([84] ++ pad2 (Hour t) ++ [46] ++ pad2 (Minute t) ++ [46] ++ pad2 (SecondT t) ++ [46] ++ pad3 ms).
  split; [unfold StampString; rewrite <- !app_assoc; reflexivity|].
  split; [do 3 eexists; split; [apply pad4_numeral; exact Hy|]; split; [apply pad2_numeral; lia|]; split; [apply pad2_numeral; exact Hd|reflexivity]|].
  split.
  { right. exists (pad2 (Hour t)), (pad2 (Minute t)). eexists. split; [right; apply pad2_numeral; lia|]. split; [apply pad2_numeral; lia|]. split; [reflexivity|].
    right. exists (pad2 (SecondT t)). eexists. split; [apply pad2_numeral; lia|]. split; [reflexivity|]. right. exists 3, ms, (pad3 ms).
    split; [lia|]. split; [apply pad3_numeral; exact Hms|]. split; reflexivity. }
  split; [exact RD|]. split; [lia|]. split; [lia|]. split; [lia|].
  unfold moment. rewrite FE, Hd2. assert (EM : midnight (dayno t) = dayno t * 86400 * 1000000000) by (unfold midnight, day, second; lia). rewrite EM in *.
  unfold ms. unfold second in *. generalize dependent (dayno t * 86400). intros M EM C3. lia.
Qed.
Lemma reads_back first t minus : calendar first -> y1k <= t < midnight (first 10000) -> ParseTime (TimeString minus t) = Some (t - t mod 1000000).
Proof.
  intros Hc Ht. unfold TimeString, Before. destruct (Z.ltb_spec t y1k); [lia|]. cbn [andb].
  destruct (printed first t Hc Ht) as (y & m & d & h & mi & sec & ms & sd & sc & -> & HD & HC & R). eapply (reads first); [exact Hc|exact HD|exact HC|].
  destruct R as (R1 & R2 & R3 & R4 & ->). auto.
Qed.

(* which texts are time stamps *)
Lemma digit2_inv a b n : digit2 a b = Some n -> 48 <= a <= 57 /\ 48 <= b <= 57 /\ n = (a - 48) * 10 + (b - 48).
Proof. unfold digit2, isdigit. destruct (_ && _) eqn:E; [|discriminate]. intros K. injection K as <-. lia. Qed.
Lemma fixed2_inv s n r : fixed2 s = Some (n, r) -> exists sn, numeral 2 n sn /\ s = sn ++ r.
Proof.
  unfold fixed2. destruct s as [|a [|b s]]; try discriminate. destruct (digit2 a b) as [x|] eqn:E; [|discriminate]. intros K. injection K as <- <-.
  destruct (digit2_inv _ _ _ E) as (Ha & Hb & ->). exists [a; b]. split; [|reflexivity]. split; [reflexivity|]. split; [repeat constructor; lia|]. unfold value. cbn [fold_left]. lia.
Qed.
Lemma oneOrTwo_inv s n r : oneOrTwo s = Some (n, r) -> exists sn, (numeral 1 n sn \/ numeral 2 n sn) /\ s = sn ++ r.
Proof.
  unfold oneOrTwo. destruct s as [|a [|b s]]; try discriminate.
  - destruct (isdigit a) eqn:Ea; [|discriminate]. intros K. injection K as <- <-. apply isdigit_iff in Ea. exists [a]. split; [|reflexivity]. left. split; [reflexivity|]. split; [repeat constructor; lia|reflexivity].
  - destruct (isdigit a) eqn:Ea; [|discriminate]. destruct (isdigit b) eqn:Eb.
    + destruct (digit2 a b) as [x|] eqn:E; [|discriminate]. intros K. injection K as <- <-. destruct (digit2_inv _ _ _ E) as (Ha & Hb & ->). exists [a; b]. split; [|reflexivity]. right.
      split; [reflexivity|]. split; [repeat constructor; lia|]. unfold value. cbn [fold_left]. lia.
    + intros K. injection K as <- <-. apply isdigit_iff in Ea. exists [a]. split; [|reflexivity]. left. split; [reflexivity|]. split; [repeat constructor; lia|reflexivity].
Qed.
Lemma year4_inv s n r : year4 s = Some (n, r) -> exists sn, numeral 4 n sn /\ s = sn ++ r.
Proof.
  unfold year4. destruct s as [|a [|b [|c [|e s]]]]; try discriminate. destruct (digit2 a b) as [x|] eqn:E; [|discriminate]. destruct (digit2 c e) as [z|] eqn:E2; [|discriminate]. intros K. injection K as <- <-.
  destruct (digit2_inv _ _ _ E) as (Ha & Hb & ->). destruct (digit2_inv _ _ _ E2) as (Hc & He & ->). exists [a; b; c; e]. split; [|reflexivity]. split; [reflexivity|]. split; [repeat constructor; lia|]. unfold value. cbn [fold_left]. lia.
Qed.
Lemma skipc_inv c s r : skipc c s = Some r -> s = c :: r.
Proof. destruct s as [|x s]; [discriminate|]. cbn [skipc]. destruct (Z.eqb_spec x c) as [->|]; [|discriminate]. intros K. injection K as <-. reflexivity. Qed.
Lemma ymd_inv s y m d r : ymd s = Some (y, m, d, r) -> exists sd, date_text y m d sd /\ s = sd ++ r.
Proof.
  unfold ymd. destruct (year4 s) as [[y1 s1]|] eqn:E1; [|discriminate]. destruct (skipc c_point s1) as [s2|] eqn:E2; [|discriminate]. destruct (fixed2 s2) as [[m1 s3]|] eqn:E3; [|discriminate].
  destruct (_ && _); [|discriminate]. destruct (skipc c_point s3) as [s4|] eqn:E4; [|discriminate]. destruct (fixed2 s4) as [[d1 s5]|] eqn:E5; [|discriminate].
  intros K. injection K as <- <- <- <-. destruct (year4_inv _ _ _ E1) as (sy & Hy & ->). apply skipc_inv in E2. destruct (fixed2_inv _ _ _ E3) as (sm & Hm & ->). apply skipc_inv in E4. destruct (fixed2_inv _ _ _ E5) as (sd & Hd & ->). subst s1 s3.
  exists (sy ++ [46] ++ sm ++ [46] ++ sd). split; [exists sy, sm, sd; auto|]. rewrite <- !app_assoc. reflexivity.
Qed.
Lemma hm_inv s h mi r : hm s = Some (h, mi, r) -> exists sh sm, (numeral 1 h sh \/ numeral 2 h sh) /\ numeral 2 mi sm /\ s = [84] ++ sh ++ [46] ++ sm ++ r.
Proof.
  unfold hm. destruct (skipc c_T s) as [s1|] eqn:E1; [|discriminate]. destruct (oneOrTwo s1) as [[h1 s2]|] eqn:E2; [|discriminate]. destruct (h1 <? 24); [|discriminate].
  destruct (skipc c_point s2) as [s3|] eqn:E3; [|discriminate]. destruct (fixed2 s3) as [[m1 s4]|] eqn:E4; [|discriminate]. destruct (m1 <? 60); [|discriminate]. intros K. injection K as <- <- <-.
  apply skipc_inv in E1. destruct (oneOrTwo_inv _ _ _ E2) as (sh & Hh & ->). apply skipc_inv in E3. destruct (fixed2_inv _ _ _ E4) as (sm & Hm & ->). subst s s2. exists sh, sm. auto.
Qed.
Lemma span_inv p s : forall a b, span p s = (a, b) -> s = a ++ b /\ forallb p a = true.
Proof.
  induction s as [|c s IH]; cbn [span]; intros a b E; [injection E as <- <-; auto|]. destruct (p c) eqn:Pc; [|injection E as <- <-; auto].
  destruct (span p s) as [a1 b1]. injection E as <- <-. destruct (IH a1 b1 eq_refl) as [-> F]. cbn [app forallb]. rewrite Pc, F. auto.
Qed.
Lemma fraction_inv s ns : fraction s = Some (ns, []) -> (s = [] /\ ns = 0) \/ exists k v f, 1 <= k <= 9 /\ numeral k v f /\ s = [46] ++ f /\ ns = v * 10 ^ (9 - k).
Proof.
  unfold fraction. destruct s as [|p [|c r]]; [intros K; injection K as <-; auto|discriminate|].
  destruct ((p =? c_point) && isdigit c) eqn:B; [|discriminate]. apply andb_prop in B. destruct B as [B1 B2]. apply Z.eqb_eq in B1. subst p.
  destruct (span isdigit (c :: r)) as [ds t] eqn:E. destruct (Z.leb_spec (zlen ds) 9) as [L|L]; [|discriminate]. intros K. injection K as <- ->.
  pose proof E as E'. apply span_inv in E. destruct E as [E F]. rewrite app_nil_r in E. right. exists (zlen ds), (digits_num 0 ds), ds.
  assert (L1 : 1 <= zlen ds) by (rewrite <- E; rewrite zlen_cons; pose proof (zlen_nonneg r); lia).
  split; [lia|]. split; [|split; [rewrite <- E; reflexivity|reflexivity]].
  split; [reflexivity|]. split; [|rewrite digits_num_value; reflexivity]. rewrite forallb_forall in F. apply Forall_forall. intros x Hx. apply isdigit_iff, F, Hx.
Qed.
Lemma validday_inv y m d r t : validday y m d r = Some t -> t = r.
Proof. unfold validday. destruct (_ && _); [|discriminate]. intros K. injection K as <-. reflexivity. Qed.
Lemma layout_date_inv s t : layout_date s = Some t -> exists y m d sd, date_text y m d sd /\ s = sd ++ [].
Proof.
  unfold layout_date. destruct (ymd s) as [[[[y m] d] r]|] eqn:E; [|discriminate]. destruct r; [|discriminate]. intros _. destruct (ymd_inv _ _ _ _ _ E) as (sd & HD & ->). exists y, m, d, sd. auto.
Qed.
Lemma layout_minute_inv s t : layout_minute s = Some t -> exists y m d h mi sd sc, date_text y m d sd /\ clock_text h mi 0 0 sc /\ s = sd ++ sc.
Proof.
  unfold layout_minute. destruct (ymd s) as [[[[y m] d] r]|] eqn:E; [|discriminate]. destruct (hm r) as [[[h mi] r2]|] eqn:E2; [|discriminate]. destruct r2; [|discriminate]. intros _.
  destruct (ymd_inv _ _ _ _ _ E) as (sd & HD & ->). destruct (hm_inv _ _ _ _ E2) as (sh & sm & Hh & Hm & ->). exists y, m, d, h, mi, sd. eexists. split; [exact HD|]. split; [|reflexivity].
  right. exists sh, sm, []. auto 10.
Qed.
Lemma layout_second_inv s t : layout_second s = Some t -> exists y m d h mi sec ns sd sc, date_text y m d sd /\ clock_text h mi sec ns sc /\ s = sd ++ sc.
Proof.
  unfold layout_second. destruct (ymd s) as [[[[y m] d] r]|] eqn:E; [|discriminate]. destruct (hm r) as [[[h mi] r2]|] eqn:E2; [|discriminate]. destruct (skipc c_point r2) as [r3|] eqn:E3; [|discriminate].
  destruct (fixed2 r3) as [[sec r4]|] eqn:E4; [|discriminate]. destruct (sec <? 60); [|discriminate]. destruct (fraction r4) as [[ns r5]|] eqn:E5; [|discriminate]. destruct r5; [|discriminate]. intros _.
  destruct (ymd_inv _ _ _ _ _ E) as (sd & HD & ->). destruct (hm_inv _ _ _ _ E2) as (sh & sm & Hh & Hm & ->). apply skipc_inv in E3. subst r2. destruct (fixed2_inv _ _ _ E4) as (ss & Hs & ->).
  apply fraction_inv in E5. exists y, m, d, h, mi, sec, ns, sd. eexists. split; [exact HD|]. split; [|reflexivity].
  right. exists sh, sm. eexists. split; [exact Hh|]. split; [exact Hm|]. split; [reflexivity|]. right. exists ss, r4. auto.
Qed.
Lemma parseUnits_bound n : forall d s r, d <= maxInt -> parseUnits n d s = Some r -> r <= maxInt.
Proof.
  induction n as [|n IH]; intros d s r Hd; (destruct s as [|c s]; [cbn [parseUnits]; intros K; injection K as <-; exact Hd|]); cbn [parseUnits]; [discriminate|].
  destruct (negb _); [discriminate|]. destruct (leadingInt 0 (c :: s)) as [[v s1]|]; [|discriminate].
  destruct (match s1 with [] => _ | _ => _ end) as [[[f scale] s2] post]. destruct (_ && _); [discriminate|]. destruct (span _ s2) as [u s3]. destruct (unit_of u) as [un|]; [|discriminate].
  destruct (maxInt / un <? v); [discriminate|]. destruct (maxInt <? _); [discriminate|]. destruct (Z.ltb_spec maxInt (d + (v * un + (if 0 <? f then f * un / scale else 0)))) as [K|K]; [discriminate|]. apply IH. exact K.
Qed.
Lemma leadingInt_pos s : forall x v r, 0 <= x -> leadingInt x s = Some (v, r) -> 0 <= v.
Proof.
  induction s as [|c s IH]; cbn [leadingInt]; intros x v r Hx; [intros K; injection K as <- <-; exact Hx|]. destruct (isdigit c) eqn:Ic; [|intros K; injection K as <- <-; exact Hx].
  apply isdigit_iff in Ic. destruct (maxInt <? _); [discriminate|]. apply IH. lia.
Qed.
Lemma leadingFraction_pos s : forall o x sc, 0 <= x -> 0 < sc -> let '(f, scale, _) := leadingFraction o x sc s in 0 <= f /\ 0 < scale.
Proof.
  induction s as [|c s IH]; cbn [leadingFraction]; intros o x sc Hx Hs; [auto|]. destruct (isdigit c) eqn:Ic; [|auto]. apply isdigit_iff in Ic. destruct (o || _); apply IH; lia.
Qed.
Lemma unit_pos u n : unit_of u = Some n -> 0 < n.
Proof. unfold unit_of. repeat (destruct (list_eq_dec Z.eq_dec u _); [intros K; injection K as <-; unfold second; lia|]). discriminate. Qed.
Lemma parseUnits_pos n : forall d s r, parseUnits n d s = Some r -> d <= r.
Proof.
  induction n as [|n IH]; intros d s r; (destruct s as [|c s]; [cbn [parseUnits]; intros K; injection K as <-; lia|]); cbn [parseUnits]; [discriminate|].
  destruct (negb _); [discriminate|]. destruct (leadingInt 0 (c :: s)) as [[v s1]|] eqn:EL; [|discriminate]. apply leadingInt_pos in EL; [|lia].
  destruct (match s1 with [] => _ | _ => _ end) as [[[f scale] s2] post] eqn:EF.
  assert (PF : 0 <= f /\ 0 < scale).
  { destruct s1 as [|x t1]; [injection EF as <- <- <- <-; lia|]. destruct (x =? c_point); [|injection EF as <- <- <- <-; lia].
    pose proof (leadingFraction_pos t1 false 0 1 ltac:(lia) ltac:(lia)) as P. destruct (leadingFraction false 0 1 t1) as [[f1 sc1] r1]. injection EF as <- <- <- <-. exact P. }
  destruct (_ && _); [discriminate|]. destruct (span _ s2) as [u s3]. destruct (unit_of u) as [un|] eqn:EU; [|discriminate]. apply unit_pos in EU.
  destruct (maxInt / un <? v); [discriminate|]. destruct (maxInt <? _); [discriminate|]. destruct (maxInt <? _); [discriminate|]. intros K. apply IH in K.
  assert (0 <= v * un) by (apply Z.mul_nonneg_nonneg; lia). assert (0 <= (if 0 <? f then f * un / scale else 0)) by (destruct (0 <? f); [apply Z.div_pos; [apply Z.mul_nonneg_nonneg; lia|lia]|lia]).
  generalize dependent (v * un). generalize dependent (if 0 <? f then f * un / scale else 0). intros. lia.
Qed.
Lemma duration_bound s t : ParseDuration s = Some t -> - 2 ^ 63 < t < 2 ^ 63.
Proof.
  unfold ParseDuration. destruct (match s with [] => _ | _ => _ end) as [neg s'] eqn:E. destruct (list_eq_dec Z.eq_dec s' [48]); [intros K; injection K as <-; lia|].
  destruct s' as [|c r]; [discriminate|]. destruct (parseUnits _ _ _) as [d|] eqn:P; [|discriminate]. cbn [option_map]. intros K. injection K as <-.
  assert (M0 : 0 <= maxInt) by (unfold maxInt; lia). pose proof (parseUnits_bound _ _ _ _ M0 P) as B. apply parseUnits_pos in P. unfold maxInt in B. destruct neg; lia.
Qed.
Lemma clock_no45 h mi sec ns s : clock_text h mi sec ns s -> ~ In 45 s.
Proof.
  assert (DG : forall l, dg l -> ~ In 45 l) by (intros l F I; rewrite Forall_forall in F; specialize (F _ I); cbv beta in F; lia).
  intros [(-> & _)|(sh & sm & r & Hh & Hm & -> & Hr)]; [intros []|].
  assert (Dh : dg sh) by (destruct Hh as [Hh|Hh]; eapply numeral_dg; exact Hh).
  assert (R : ~ In 45 r).
  { destruct Hr as [(-> & _)|(ss & r' & Hs & -> & Hr')]; [intros []|]. rewrite !in_app_iff. intros [[K|[]]|[K|K]]; [discriminate|eapply DG; [eapply numeral_dg; exact Hs|exact K]|].
    destruct Hr' as [(-> & _)|(k & v & f & _ & Hf & -> & _)]; [destruct K|]. rewrite in_app_iff in K. destruct K as [[K|[]]|K]; [discriminate|eapply DG; [eapply numeral_dg; exact Hf|exact K]]. }
  rewrite !in_app_iff. intros [[K|[]]|[K|[[K|[]]|[K|K]]]]; [discriminate|exact (DG _ Dh K)|discriminate|eapply DG; [eapply numeral_dg; exact Hm|exact K]|exact (R K)].
Qed.
Lemma date_no45 y m d s : date_text y m d s -> ~ In 45 s.
Proof.
  assert (DG : forall l, dg l -> ~ In 45 l) by (intros l F I; rewrite Forall_forall in F; specialize (F _ I); cbv beta in F; lia).
  intros (sy & sm & sd & Hy & Hm & Hd & ->). rewrite !in_app_iff. intros [K|[[K|[]]|[K|[[K|[]]|K]]]]; try discriminate; (eapply DG; [eapply numeral_dg|exact K]; eassumption).
Qed.
Lemma macron_id_inv s r : macron s = r -> ~ In 45 r -> s = r.
Proof.
  intros <- N. symmetry. apply macron_none. intros K. apply N. unfold macron. apply in_map_iff. exists c_high. split; [reflexivity|exact K].
Qed.
Lemma only_stamps s t : ParseTime s = Some t -> 2 ^ 63 <= t -> exists y m d h mi sec ns sd sc, date_text y m d sd /\ clock_text h mi sec ns sc /\ s = sd ++ sc.
Proof.
  unfold ParseTime. intros E Ht.
  assert (G : exists y m d h mi sec ns sd sc, date_text y m d sd /\ clock_text h mi sec ns sc /\ macron s = sd ++ sc).
  { destruct (layout_date (macron s)) as [u|] eqn:E1.
    { destruct (layout_date_inv _ _ E1) as (y & m & d & sd & HD & EQ). exists y, m, d, 0, 0, 0, 0, sd, []. split; [exact HD|]. split; [left; auto|exact EQ]. }
    destruct (layout_minute (macron s)) as [u|] eqn:E2.
    { destruct (layout_minute_inv _ _ E2) as (y & m & d & h & mi & sd & sc & HD & HC & EQ). exists y, m, d, h, mi, 0, 0, sd, sc. auto. }
    destruct (layout_second (macron s)) as [u|] eqn:E3.
    { destruct (layout_second_inv _ _ E3) as (y & m & d & h & mi & sec & ns & sd & sc & HD & HC & EQ). exists y, m, d, h, mi, sec, ns, sd, sc. auto. }
    destruct (ParseDuration (macron s)) as [d|] eqn:E4; [|discriminate]. cbn [option_map] in E. injection E as <-. apply duration_bound in E4. unfold AddT, y0 in Ht. lia. }
  destruct G as (y & m & d & h & mi & sec & ns & sd & sc & HD & HC & EQ). exists y, m, d, h, mi, sec, ns, sd, sc. split; [exact HD|]. split; [exact HC|].
  apply macron_id_inv; [exact EQ|]. rewrite in_app_iff. intros [K|K]; [exact (date_no45 _ _ _ _ HD K)|exact (clock_no45 _ _ _ _ _ HC K)].
Qed.
