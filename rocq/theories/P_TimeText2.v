(* P_TimeText2.v -- durations read back, the layouts of time stamps. *)
From Verif Require Import Base M_Scan M_Format P_Format P_Format2 P_Format3 M_Time S_Time P_Time M_TimeText S_TimeText P_TimeText.
Open Scope Z_scope.
Ltac Zify.zify_post_hook ::= Z.to_euclidean_division_equations.

(* ---- durations ---- *)
Definition point_digits (D : list Z) : list Z := match D with [] => [] | _ => c_point :: D end.
Lemma dsmall : 2 ^ 63 < 10 ^ 20. Proof. reflexivity. Qed.
Lemma scale_exact p D w : 0 <= zlen D <= p -> value D * 10 ^ (p - zlen D) = w -> value D * 10 ^ p / 10 ^ zlen D = w.
Proof.
  intros L E. replace p with (zlen D + (p - zlen D)) at 1 by lia. rewrite Z.pow_add_r by lia.
  replace (value D * (10 ^ zlen D * 10 ^ (p - zlen D))) with (value D * 10 ^ (p - zlen D) * 10 ^ zlen D) by ring.
  rewrite Z.div_mul; [exact E|]. pose proof (Z.pow_pos_nonneg 10 (zlen D) ltac:(lia) ltac:(lia)). lia.
Qed.
Lemma value_bound p D w : 0 <= zlen D <= p -> p <= 9 -> value D * 10 ^ (p - zlen D) = w -> w < 10 ^ p -> Forall (fun c => 48 <= c <= 57) D -> value D <= maxInt.
Proof.
  intros L Lp E W F. pose proof (Z.pow_pos_nonneg 10 (p - zlen D) ltac:(lia) ltac:(lia)) as P. pose proof (Z.pow_le_mono_r 10 p 9 ltac:(lia) Lp).
  pose proof (dfold_ge D 0 ltac:(lia) F) as G. fold (value D) in G. assert (value D <= w) by nia. unfold maxInt. change (10 ^ 9) with 1000000000 in *. lia.
Qed.
(* the parts of a duration below one second *)
Lemma small_seg p u d : (p <= 9)%nat -> 0 <= d < 10 ^ 9 -> u <> [] -> forallb unitc u = true -> unit_of u = Some (10 ^ Z.of_nat p) ->
  let f := fmtFrac p false d [] in parseUnits 1 0 (decimal (snd f) ++ fst f ++ u) = Some d.
Proof.
  intros Hp Hd Hu Hu2 Hun f. destruct (frac_spec p d ltac:(lia)) as (D & E1 & E2 & F & L & V). unfold f. rewrite E1, E2.
  pose proof (Z.pow_pos_nonneg 10 (Z.of_nat p) ltac:(lia) ltac:(lia)) as P. set (q := 10 ^ Z.of_nat p) in *. pose proof (Z.mod_pos_bound d q P) as M.
  assert (X : value D * q / 10 ^ zlen D = d mod q) by (apply scale_exact; [pose proof (zlen_nonneg D); lia|exact V]).
  assert (K : parseUnits 1 0 (decimal (d / q) ++ (match D with [] => [] | _ => c_point :: D end) ++ u ++ []) = parseUnits 0 (0 + (d / q * q + value D * q / 10 ^ zlen D)) []).
  { apply seg; [|lia|exact F|exact Hu|exact Hu2|exact Hun|exact P|exact Logic.I| |].
    - split; [apply Z.div_pos; lia|]. apply Z.le_lt_trans with d; [apply Z.div_le_upper_bound; nia|]. change (10 ^ 9) with 1000000000 in Hd. pose proof dsmall. lia.
    - apply (value_bound (Z.of_nat p) D (d mod q)); auto; [pose proof (zlen_nonneg D); lia|lia|lia].
    - rewrite X. pose proof (Z.div_mod d q ltac:(lia)). unfold maxInt. change (10 ^ 9) with 1000000000 in Hd. lia. }
  rewrite app_nil_r in K. rewrite X in K. eapply eq_trans; [exact K|]. cbn [parseUnits]. f_equal. pose proof (Z.div_mod d q ltac:(lia)). lia.
Qed.
Lemma dec_head v : 0 <= v < 10 ^ 20 -> forall r, match decimal v ++ r with [] => True | c :: _ => 48 <= c <= 57 end.
Proof. intros H r. destruct (decimal_nonempty v H) as (c & l & E & Hc). rewrite E. exact Hc. Qed.
Lemma seg0 n d v u unit rest : 0 <= v < 10 ^ 20 -> 0 <= d -> u <> [] -> forallb unitc u = true -> unit_of u = Some unit -> 0 < unit ->
  (match rest with [] => True | c :: _ => 48 <= c <= 57 end) -> d + v * unit <= maxInt ->
  parseUnits (S n) d (decimal v ++ u ++ rest) = parseUnits n (d + v * unit) rest.
Proof.
  intros Hv Hd Hu Hu2 Hun Hp Hr Hm.
  assert (Z0 : value [] * unit / 10 ^ zlen (@nil Z) = 0) by reflexivity.
  pose proof (seg n d v [] u unit rest Hv Hd (Forall_nil _) Hu Hu2 Hun Hp Hr ltac:(unfold maxInt; cbn; lia)) as K. rewrite Z0, Z.add_0_r in K. apply K. exact Hm.
Qed.
(* the text without the sign *)
Definition dtext (u : Z) : list Z := DurationString u.
Lemma dtext_parse u : 0 < u <= maxInt -> exists n, (n <= length (DurationString u))%nat /\ parseUnits n 0 (DurationString u) = Some u.
Proof.
  intros Hu. unfold DurationString. destruct (Z.ltb_spec u 0) as [K|_]; [lia|]. rewrite Z.abs_eq by lia. destruct (Z.eqb_spec u 0) as [K|_]; [lia|].
  destruct (Z.ltb_spec u 1000000000) as [Hs|Hs].
  - assert (R : exists p un, (if u <? 1000 then (0%nat, [c_n]) else if u <? 1000000 then (3%nat, [c_micro]) else (6%nat, [c_m])) = (p, un) /\ (p <= 9)%nat /\
               forallb unitc (un ++ [c_s]) = true /\ unit_of (un ++ [c_s]) = Some (10 ^ Z.of_nat p)).
    { destruct (u <? 1000); [|destruct (u <? 1000000)]; do 2 eexists; (split; [reflexivity|]); (split; [lia|]); split; reflexivity. }
    destruct R as (p & un & -> & Hp & H1 & H2). pose proof (small_seg p (un ++ [c_s]) u Hp ltac:(change (10 ^ 9) with 1000000000; lia) ltac:(destruct un; discriminate) H1 H2) as K.
    cbv zeta in K. destruct (fmtFrac p false u []) as [f v]. cbn [fst snd] in K. exists 1%nat. split; [|exact K]. rewrite !app_length. cbn [length]. lia.
  - destruct (frac_spec 9 u ltac:(lia)) as (D & E1 & E2 & F & L & V). destruct (fmtFrac 9 false u []) as [f w]. cbn [fst snd] in E1, E2. subst f. fold (point_digits D).
    change (Z.of_nat 9) with 9 in *. change (10 ^ 9) with 1000000000 in *. pose proof (Z.mod_pos_bound u 1000000000 ltac:(lia)) as M. pose proof (zlen_nonneg D) as LD.
    assert (X : value D * second / 10 ^ zlen D = u mod 1000000000) by (apply (scale_exact 9); [lia|exact V]).
    assert (VB : value D <= maxInt) by (apply (value_bound 9 D (u mod 1000000000)); auto; lia).
    assert (DM : u = 1000000000 * w + u mod 1000000000) by (rewrite E1; apply Z.div_mod; lia).
    assert (W : 1 <= w) by lia. unfold second in X.
    assert (Wb : w <= maxInt) by (unfold maxInt in *; lia).
    assert (U0 : forall x rest, (match rest with [] => True | c :: _ => 48 <= c <= 57 end) -> 0 <= x -> x + (w mod 60) * 1000000000 + u mod 1000000000 <= maxInt -> forall n,
      parseUnits (S n) x ((decimal (w mod 60) ++ point_digits D ++ [c_s]) ++ rest) = parseUnits n (x + (w mod 60) * 1000000000 + u mod 1000000000) rest).
    { intros x rest Hr Hx Hm n. rewrite <- !app_assoc. unfold point_digits. rewrite (seg n x (w mod 60) D [c_s] 1000000000 rest); try assumption; try lia; try discriminate; try reflexivity.
      rewrite X. f_equal. lia. }
    destruct (Z.eqb_spec (w / 60) 0) as [M0|M0].
    { exists 1%nat. split; [rewrite !app_length; cbn [length]; lia|]. rewrite <- (app_nil_r (decimal _ ++ _)). rewrite U0; [|exact Logic.I|lia|lia]. cbn [parseUnits]. f_equal. lia. }
    destruct (Z.eqb_spec (w / 60 / 60) 0) as [H0|H0].
    { exists 2%nat. split; [rewrite !app_length; cbn [length]; rewrite !app_length; cbn [length]; lia|].
      change (c_m :: decimal (w mod 60) ++ point_digits D ++ [c_s]) with ([c_m] ++ decimal (w mod 60) ++ point_digits D ++ [c_s]).
      eapply eq_trans; [apply (seg0 1 0 (w / 60 mod 60) [c_m] (60 * second)); [lia|lia|discriminate|reflexivity|reflexivity|reflexivity|apply dec_head; lia|unfold second, maxInt in *; lia]|].
      rewrite <- (app_nil_r (decimal _ ++ _)). rewrite U0; [|exact Logic.I|unfold second; lia|unfold second; lia]. cbn [parseUnits]. f_equal. unfold second. lia. }
    exists 3%nat. split; [rewrite !app_length; cbn [length]; rewrite !app_length; cbn [length]; rewrite !app_length; cbn [length]; lia|].
    change (c_m :: decimal (w mod 60) ++ point_digits D ++ [c_s]) with ([c_m] ++ decimal (w mod 60) ++ point_digits D ++ [c_s]).
    change (c_h :: decimal (w / 60 mod 60) ++ [c_m] ++ decimal (w mod 60) ++ point_digits D ++ [c_s]) with ([c_h] ++ decimal (w / 60 mod 60) ++ [c_m] ++ decimal (w mod 60) ++ point_digits D ++ [c_s]).
    eapply eq_trans; [apply (seg0 2 0 (w / 60 / 60) [c_h] (3600 * second)); [pose proof dsmall; unfold maxInt in *; lia|lia|discriminate|reflexivity|reflexivity|reflexivity|apply dec_head; lia|unfold second, maxInt in *; lia]|].
    eapply eq_trans; [apply (seg0 1 _ (w / 60 mod 60) [c_m] (60 * second)); [lia|unfold second; lia|discriminate|reflexivity|reflexivity|reflexivity|apply dec_head; lia|unfold second, maxInt in *; lia]|].
    rewrite <- (app_nil_r (decimal _ ++ _)). rewrite U0; [|exact Logic.I|unfold second; lia|unfold second; lia]. cbn [parseUnits]. f_equal. unfold second. lia.
Qed.
