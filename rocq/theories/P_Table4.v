(* P_Table4.v -- assignment to the cells of a table. *)
From Coq Require Import String.
From Verif Require Import Base M_Array S_Array P_Array M_Structural P_Transpose M_Number S_Number P_Number P_Tower M_Scalar P_Scalar M_Dict S_Dict P_Dict M_Table S_Table P_Table P_Table2 P_Table3.
Open Scope Z_scope.

Section P.
  Context {P : Type} (M : methods P) (t : tower P) (hu : ntype -> bool) {K : Type} (keq : K -> K -> bool) (Hk : key_equality keq).
  Local Notation sv := (sval P).
  Local Notation table := (@table P K).

  Lemma set_all_ok (rows : list Z) : forall (l vs : list sv) i, Forall (fun k => 0 <= k < zlen l) rows -> 0 <= i -> i + zlen rows <= zlen vs ->
    exists l', set_all l rows vs i = Ok l' /\ zlen l' = zlen l /\
      (forall j r, znth rows j = Some r -> (forall j', j < j' -> znth rows j' <> Some r) -> znth l' r = znth vs (i + j)) /\
      (forall r, ~ In r rows -> znth l' r = znth l r) /\ (forall x, In x l' -> In x l \/ In x vs).
  Proof.
    induction rows as [|k rows IH]; intros l vs i Hr Hi Hz; cbn [set_all].
    - exists l. split; [reflexivity|]. split; [reflexivity|]. split; [intros j r Hj; apply znth_In in Hj; contradiction|]. split; [reflexivity|auto].
    - inversion Hr as [|? ? Hk0 Hr']; subst. rewrite zlen_cons in Hz. pose proof (zlen_nonneg rows).
      destruct (znth vs i) as [v|] eqn:Ev; [|apply znth_none in Ev; lia]. rewrite (proj2 (zat_ok _ _ _) Ev). cbn [obind].
      destruct (Z.ltb_spec k 0); [lia|]. destruct (Z.leb_spec (zlen l) k); [lia|]. cbn [orb].
      destruct (IH (zupd l k v) vs (i + 1)) as (l' & E & Hl & G1 & G2 & G3); [rewrite zlen_zupd; exact Hr'|lia|lia|]. rewrite zlen_zupd in Hl.
      exists l'. split; [exact E|]. split; [exact Hl|]. split; [|split].
      + intros j r Hj Hlast. pose proof (znth_some_range _ _ _ Hj) as Hjr. destruct (Z.eq_dec j 0) as [->|Hj0].
        * injection Hj as <-. rewrite Z.add_0_r. destruct (in_dec Z.eq_dec k rows) as [Hin|Hin].
          -- apply In_znth in Hin. destruct Hin as (q & Hq). exfalso. pose proof (znth_some_range _ _ _ Hq). apply (Hlast (q + 1)); [lia|]. rewrite znth_cons_pos by lia. replace (q + 1 - 1) with q by lia. exact Hq.
          -- rewrite (G2 _ Hin). rewrite znth_zupd_same by lia. symmetry. exact Ev.
        * rewrite znth_cons_pos in Hj by lia. replace (i + j) with (i + 1 + (j - 1)) by lia. apply G1; [exact Hj|]. intros j' Hj' E'. pose proof (znth_some_range _ _ _ E').
          apply (Hlast (j' + 1)); [lia|]. rewrite znth_cons_pos by lia. replace (j' + 1 - 1) with j' by lia. exact E'.
      + intros r Hin. rewrite G2 by (intros Hr2; apply Hin; right; exact Hr2). apply znth_zupd_other. intros ->. apply Hin. left. reflexivity.
      + intros x Hx. apply G3 in Hx. destruct Hx as [Hx|Hx]; [|right; exact Hx]. apply In_znth in Hx. destruct Hx as (q & Hq). pose proof (znth_some_range _ _ _ Hq) as Hqr. rewrite zlen_zupd in Hqr.
        destruct (Z.eq_dec q k) as [->|Hne]; [rewrite znth_zupd_same in Hq by lia; injection Hq as <-; right; eapply znth_In; exact Ev|].
        rewrite znth_zupd_other in Hq by congruence. left. eapply znth_In. exact Hq.
  Qed.
  Lemma same_rep_ctype (a b : rep P) : same_rep a b = true -> isUniform b = true -> ctype a = ctype b /\ isUniform a = true.
  Proof. destruct a, b; intros H U; try discriminate; (split; [|reflexivity]); try reflexivity. cbn in *. apply Z.eqb_eq in H. congruence. Qed.
  Lemma ctype_same_rep (a b : rep P) : ctype a = ctype b -> isUniform a = true -> isUniform b = true -> same_rep a b = true.
  Proof. destruct a, b; intros H U U'; try discriminate; try reflexivity. cbn in *. apply Z.eqb_eq. congruence. Qed.

  Lemma set_column_ok (col new : rep P) n rows : isUniform col = true -> rep_ok M col -> vector col n -> 0 < n -> Forall (fun i => 0 <= i < n) rows ->
    zlen (elems (view new)) = zlen rows -> rep_ok M new ->
    exists upd, written (elems (view col)) rows (elems (view new)) upd /\ (forall x, In x upd -> In x (elems (view col)) \/ In x (elems (view new))) /\
      (same_rep new col = true -> exists r, set_column M t hu None rows col new = Ok r /\ isUniform r = true /\ rep_ok M r /\ vector r n /\ elems (view r) = upd) /\
      (same_rep new col = false -> set_column M t hu None rows col new =
         (let* u := Unify M t hu (RMixed (mkArr [n] upd)) true in if snd u : bool then uniform (fst u) else Err)).
  Proof.
    intros Hu Hr (Hd & Hz) Hn Hrows Hl Hrn.
    destruct (set_all_ok rows (elems (view col)) (elems (view new)) 0) as (upd & E & Hlu & H1 & H2 & H3); [rewrite Hz; exact Hrows|lia|lia|].
    exists upd. split; [split; [exact Hlu|split; [intros i r Hi Hlast; rewrite (H1 i r Hi Hlast); f_equal; lia|exact H2]]|]. split; [exact H3|].
    unfold set_column. cbn [obind]. unfold vals. rewrite E. cbn [obind]. split; intros Hs; rewrite Hs.
    - destruct (same_rep_ctype new col Hs Hu) as (Hc & Hun). destruct (build_ok M col upd Hu) as (r & Eb & V & U & R & _).
      { intros v Hv. apply H3 in Hv. destruct Hv as [Hv|Hv]; [apply ctype_In; assumption|]. rewrite <- Hc. apply ctype_In; assumption. }
      exists r. split; [exact Eb|]. split; [exact U|]. split; [exact R|]. unfold vector. rewrite V. cbn [dims elems]. split; [split; [f_equal; lia|lia]|reflexivity].
    - unfold shape. rewrite Hd. reflexivity.
  Qed.
  (* with values of other types *)
  Lemma set_column_unify (col new : rep P) n rows r : tower_ok M t -> imports_bottom M t -> isUniform col = true -> rep_ok M col -> vector col n -> 0 < n -> Forall (fun i => 0 <= i < n) rows ->
    zlen (elems (view new)) = zlen rows -> rep_ok M new -> (forall x, In x (elems (view col)) \/ In x (elems (view new)) -> plain M t hu x) ->
    set_column M t hu None rows col new = Ok r ->
    isUniform r = true /\ rep_ok M r /\ vector r n /\ exists upd, written (elems (view col)) rows (elems (view new)) upd /\ unified M t upd (elems (view r)).
  Proof.
    intros Ht Hi Hu Hr Hv Hn Hrows Hl Hrn Hp E. destruct (set_column_ok col new n rows Hu Hr Hv Hn Hrows Hl Hrn) as (upd & Hw & Hin & Hs & Hns).
    destruct (same_rep new col) eqn:Es.
    - destruct (Hs eq_refl) as (r' & E' & U & R & V & He). rewrite E' in E. injection E as <-. split; [exact U|]. split; [exact R|]. split; [exact V|]. exists upd. split; [exact Hw|]. left. exact He.
    - rewrite (Hns eq_refl) in E. destruct (Unify M t hu (RMixed (mkArr [n] upd)) true) as [(u, ok)| |] eqn:Eu; try discriminate. cbn [obind fst snd] in E. destruct ok; [|discriminate].
      assert (Hlu : zlen upd = n) by (destruct Hw as (Hw & _), Hv as (_ & Hv); lia).
      apply unify_uptype_any in Eu; try assumption; try discriminate.
      + destruct Eu as (D & U & Iu & R). unfold uniform in E. rewrite Iu in E. injection E as <-. cbn [view dims elems] in *. split; [exact Iu|]. split; [exact R|]. split; [|exists upd; split; assumption].
        split; [exact D|]. destruct U as [U|(x & _ & U)]; [rewrite U; exact Hlu|apply Forall2_zlen in U; lia].
      + split; [|exact Logic.I]. intros _. cbn [view]. rewrite <- Hlu. apply wf_vec.
      + cbn [view elems]. intros ->. cbn in Hlu. lia.
      + cbn [view elems]. intros x Hx. apply Hp. apply Hin. exact Hx.
  Qed.
End P.
