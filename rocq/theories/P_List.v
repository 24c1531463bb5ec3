(* P_List.v -- lemmas for Prop_List.v *)
From Verif Require Import Base Eff P_Array M_List S_List.
From Coq Require Import Sorted.
Open Scope Z_scope.

Lemma lval_ind' {A} (P : lval A -> Prop) (Ha : forall a, P (Atom a)) (Hl : forall l, Forall P l -> P (Lst l)) : forall v, P v.
Proof.
  fix IH 1. intros [a|l]; [apply Ha|]. apply Hl. induction l as [|x l IHl]; constructor; [apply IH|exact IHl].
Qed.

Lemma at_path_fun {A} (v : lval A) p w1 w2 : at_path v p w1 -> at_path v p w2 -> w1 = w2.
Proof.
  intros H. revert w2. induction H as [v|l k v p w Hk Hp IH]; intros w2 H2; inversion H2; subst; [reflexivity|].
  apply IH. match goal with [ E : znth l k = Some _ |- _ ] => rewrite Hk in E; injection E as -> end. assumption.
Qed.
Lemma at_path_app {A} (v : lval A) p q w : at_path v (p ++ q) w <-> exists u, at_path v p u /\ at_path u q w.
Proof.
  revert v. induction p as [|k p IH]; intros v; cbn [app].
  - split; [intros H; exists v; split; [constructor|exact H]|]. intros (u & H1 & H2). inversion H1; subst. exact H2.
  - split.
    + intros H. inversion H as [|l k' v' p' w' Hk Hp]; subst. apply IH in Hp as (u & H1 & H2). exists u. split; [econstructor; eauto|exact H2].
    + intros (u & H1 & H2). inversion H1 as [|l k' v' p' w' Hk Hp]; subst. econstructor; [exact Hk|]. apply IH. eauto.
Qed.

(* -------- GetDeep / SetDeep -------- *)
Lemma range_dec {A} (l : list A) k : ((k <? 0) || (zlen l <=? k) = false) <-> 0 <= k < zlen l.
Proof. rewrite orb_false_iff, Z.ltb_ge, Z.leb_gt. lia. Qed.
Lemma GetDeep_spec {A} p (l : list (lval A)) w : GetDeep l p = Ok w <-> p <> [] /\ at_path (Lst l) p w.
Proof.
  revert l. induction p as [|k p IH]; intros l; cbn [GetDeep]; [split; [discriminate|intros [[] _]; reflexivity]|].
  destruct ((k <? 0) || (zlen l <=? k)) eqn:E.
  - split; [discriminate|]. intros [_ H]. inversion H as [|l0 k' v' p' w' Hk Hp]; subst. apply znth_some_range in Hk.
    apply range_dec in Hk. congruence.
  - apply range_dec in E. destruct (znth_in_range l k E) as [v Hv]. apply zat_ok in Hv as Hv'. rewrite Hv'. cbn [obind].
    destruct p as [|k2 p].
    + split; [intros [= ->]; split; [discriminate|]; econstructor; [exact Hv|constructor]|]. intros [_ H].
      inversion H as [|l0 k' v' p' w' Hk Hp]; subst. inversion Hp; subst. congruence.
    + destruct v as [a|l'].
      * split; [discriminate|]. intros [_ H]. inversion H as [|l0 k' v' p' w' Hk Hp]; subst. rewrite Hv in Hk. injection Hk as <-. inversion Hp.
      * rewrite IH. split.
        -- intros [_ H]. split; [discriminate|]. econstructor; eauto.
        -- intros [_ H]. split; [discriminate|]. inversion H as [|l0 k' v' p' w' Hk Hp]; subst. rewrite Hv in Hk. injection Hk as <-. exact Hp.
Qed.
Lemma GetDeep_nopanic {A} p (l : list (lval A)) : GetDeep l p <> Panic.
Proof.
  revert l. induction p as [|k p IH]; intros l; cbn [GetDeep]; [discriminate|].
  destruct ((k <? 0) || (zlen l <=? k)) eqn:E; [discriminate|].
  apply range_dec in E. destruct (znth_in_range l k E) as [v Hv]. apply zat_ok in Hv as Hv'. rewrite Hv'. cbn [obind].
  destruct p as [|k2 p]; [discriminate|]. destruct v; [discriminate|apply IH].
Qed.
Lemma SetDeep_defined {A} p (l : list (lval A)) x : (exists w, GetDeep l p = Ok w) <-> (exists l', SetDeep l p x = Ok l').
Proof.
  revert l. induction p as [|k p IH]; intros l; cbn [GetDeep SetDeep]; [split; intros [? H]; discriminate|].
  destruct ((k <? 0) || (zlen l <=? k)) eqn:E; [split; intros [? H]; discriminate|].
  destruct (zat l k) as [v| |]; cbn [obind]; [|split; intros [? H]; discriminate..].
  destruct p as [|k2 p]; [split; eauto|]. destruct v as [a|l']; [split; intros [? H]; discriminate|].
  rewrite IH. split; intros [y Hy].
  - rewrite Hy. cbn [obind]. eauto.
  - destruct (SetDeep l' (k2 :: p) x); [eauto|discriminate..].
Qed.
Lemma SetDeep_nopanic {A} p (l : list (lval A)) x : SetDeep l p x <> Panic.
Proof.
  revert l. induction p as [|k p IH]; intros l; cbn [SetDeep]; [discriminate|].
  destruct ((k <? 0) || (zlen l <=? k)) eqn:E; [discriminate|].
  apply range_dec in E. destruct (znth_in_range l k E) as [v Hv]. apply zat_ok in Hv as Hv'. rewrite Hv'. cbn [obind].
  destruct p as [|k2 p]; [discriminate|]. destruct v as [a|l']; [discriminate|]. specialize (IH l').
  destruct (SetDeep l' (k2 :: p) x); cbn [obind]; congruence.
Qed.
Lemma SetDeep_same {A} p (l l' : list (lval A)) x : SetDeep l p x = Ok l' -> at_path (Lst l') p x.
Proof.
  revert l l'. induction p as [|k p IH]; intros l l' H; cbn [SetDeep] in H; [discriminate|].
  destruct ((k <? 0) || (zlen l <=? k)) eqn:E; [discriminate|].
  apply range_dec in E. destruct (znth_in_range l k E) as [v Hv]. apply zat_ok in Hv as Hv'. rewrite Hv' in H. cbn [obind] in H.
  destruct p as [|k2 p].
  - injection H as <-. econstructor; [apply znth_zupd_same; exact E|constructor].
  - destruct v as [a|l1]; [discriminate|]. destruct (SetDeep l1 (k2 :: p) x) as [l2| |] eqn:E2; [|discriminate..]. cbn [obind] in H. injection H as <-.
    econstructor; [apply znth_zupd_same; exact E|]. apply (IH l1). exact E2.
Qed.
Lemma prefix_nil {X} (p : list X) : prefix [] p. Proof. exists p. reflexivity. Qed.
Lemma prefix_cons {X} k (p q : list X) : prefix (k :: p) (k :: q) <-> prefix p q.
Proof. split; intros [r E]; exists r; [injection E as ->; reflexivity|rewrite E; reflexivity]. Qed.
Lemma SetDeep_other {A} p (l l' : list (lval A)) x q w : SetDeep l p x = Ok l' -> apart p q -> (at_path (Lst l) q w <-> at_path (Lst l') q w).
Proof.
  revert l l' q w. induction p as [|k p IH]; intros l l' q w H [A1 A2]; cbn [SetDeep] in H; [discriminate|].
  destruct ((k <? 0) || (zlen l <=? k)) eqn:E; [discriminate|].
  apply range_dec in E. destruct (znth_in_range l k E) as [v Hv]. apply zat_ok in Hv as Hv'. rewrite Hv' in H. cbn [obind] in H.
  destruct q as [|j q]; [exfalso; apply A2, prefix_nil|].
  destruct (Z.eq_dec j k) as [->|Hjk].
  - rewrite prefix_cons in A1, A2. destruct p as [|k2 p]; [exfalso; apply A1, prefix_nil|].
    destruct v as [a|l1]; [discriminate|]. destruct (SetDeep l1 (k2 :: p) x) as [l2| |] eqn:E2; [|discriminate..]. cbn [obind] in H. injection H as <-.
    assert (Q : at_path (Lst l1) q w <-> at_path (Lst l2) q w) by (apply (IH l1); [exact E2|split; assumption]).
    split; intros H; inversion H as [|l0 k' v' p' w' Hk Hp]; subst.
    + rewrite Hv in Hk. injection Hk as <-. econstructor; [apply znth_zupd_same; exact E|]. apply Q, Hp.
    + rewrite znth_zupd_same in Hk by exact E. injection Hk as <-. econstructor; [exact Hv|]. apply Q, Hp.
  - assert (F : exists y, l' = zupd l k y).
    { destruct p as [|k2 p]; [injection H as <-; eauto|]. destruct v as [a|l1]; [discriminate|].
      destruct (SetDeep l1 (k2 :: p) x) as [l2| |]; [|discriminate..]. injection H as <-. eauto. }
    destruct F as [y ->].
    split; intros HH; inversion HH as [|l0 k' v' p' w' Hk Hp]; subst; econstructor; [|exact Hp| |exact Hp].
    + rewrite znth_zupd_other by congruence. exact Hk.
    + rewrite znth_zupd_other in Hk by congruence. exact Hk.
Qed.
(* lists on the way keep their length *)
Lemma SetDeep_len {A} p (l l' : list (lval A)) x q lq : SetDeep l p x = Ok l' -> prefix q p -> q <> p -> at_path (Lst l) q (Lst lq) ->
  exists lq', at_path (Lst l') q (Lst lq') /\ zlen lq' = zlen lq.
Proof.
  revert l l' q lq. induction p as [|k p IH]; intros l l' q lq H P N Q; cbn [SetDeep] in H; [discriminate|].
  destruct ((k <? 0) || (zlen l <=? k)) eqn:E; [discriminate|].
  apply range_dec in E. destruct (znth_in_range l k E) as [v Hv]. apply zat_ok in Hv as Hv'. rewrite Hv' in H. cbn [obind] in H.
  assert (F : exists y, l' = zupd l k y).
  { destruct p as [|k2 p]; [injection H as <-; eauto|]. destruct v as [a|l1]; [discriminate|].
    destruct (SetDeep l1 (k2 :: p) x) as [l2| |]; [|discriminate..]. injection H as <-. eauto. }
  destruct q as [|j q].
  { inversion Q; subst. destruct F as [y ->]. exists (zupd lq k y). split; [constructor|apply zlen_zupd]. }
  assert (j = k) by (destruct P as [r Er]; cbn in Er; congruence). subst j. rewrite prefix_cons in P.
  destruct p as [|k2 p]; [destruct P as [r Er]; destruct q; [congruence|discriminate]|].
  destruct v as [a|l1]; [discriminate|]. destruct (SetDeep l1 (k2 :: p) x) as [l2| |] eqn:E2; [|discriminate..]. cbn [obind] in H. injection H as <-.
  inversion Q as [|l0 k' v' p' w' Hk Hp]; subst. rewrite Hv in Hk. injection Hk as <-.
  destruct (IH l1 l2 q lq E2 P ltac:(congruence) Hp) as (lq' & H1 & H2). exists lq'. split; [|exact H2].
  econstructor; [apply znth_zupd_same; exact E|exact H1].
Qed.

(* -------- listSelection -------- *)
Lemma list_resolve_spec {A} o (l : list (lval A)) is p : is <> [] ->
  (list_resolve l (map (fun i => i - o) is) = Ok p <-> denotes o l is p).
Proof.
  revert l p. induction is as [|i is IH]; intros l p N; [congruence|]. clear N. cbn [map list_resolve]. set (j := i - o).
  set (k := if j <? 0 then zlen l + j else j).
  assert (M : (k <? 0) || (zlen l <=? k) = false -> means o (zlen l) i k).
  { intros E. apply range_dec in E. split; [exact E|]. unfold k, j in *. destruct (i - o <? 0) eqn:Ej; [right|left]; [apply Z.ltb_lt in Ej|]; lia. }
  assert (M2 : forall k', means o (zlen l) i k' -> k' = k /\ (k <? 0) || (zlen l <=? k) = false).
  { intros k' [R C]. assert (k' = k) as ->; [|split; [reflexivity|apply range_dec; exact R]].
    unfold k, j. destruct (i - o <? 0) eqn:Ej; [apply Z.ltb_lt in Ej|apply Z.ltb_ge in Ej]; lia. }
  destruct ((k <? 0) || (zlen l <=? k)) eqn:E.
  - split; [discriminate|]. intros H. inversion H as [? ? k' Hm|? ? k' l' is' p' Hm Hk Hd]; subst; destruct (M2 _ Hm); discriminate.
  - specialize (M eq_refl). pose proof E as E0. apply range_dec in E0. destruct (znth_in_range l k E0) as [v Hv].
    apply zat_ok in Hv as Hv'. rewrite Hv'. cbn [obind]. destruct is as [|i2 is].
    + cbn [map]. split.
      * intros [= <-]. constructor. exact M.
      * intros H. inversion H as [? ? k' Hm|? ? k' l' is' p' Hm Hk Hd]; subst; [destruct (M2 _ Hm) as [-> _]; reflexivity|inversion Hd].
    + cbn [map]. destruct v as [a|l1].
      * split; [discriminate|]. intros H. inversion H as [? ? k' Hm|? ? k' l' is' p' Hm Hk Hd]; subst. destruct (M2 _ Hm) as [-> _]. congruence.
      * specialize (IH l1). cbn [map] in IH. split.
        -- destruct (list_resolve l1 (i2 - o :: map (fun i0 => i0 - o) is)) as [r| |] eqn:Er; [|discriminate..]. cbn [obind]. intros [= <-].
           apply den_step with l1; [exact M|exact Hv|]. apply IH; [discriminate|reflexivity].
        -- intros H. inversion H as [? ? k' Hm|? ? k' l' is' p' Hm Hk Hd]; subst. destruct (M2 _ Hm) as [-> _]. rewrite Hv in Hk. injection Hk as <-.
           apply IH in Hd; [|discriminate]. rewrite Hd. reflexivity.
Qed.
Lemma list_resolve_nopanic {A} (l : list (lval A)) is : list_resolve l is <> Panic.
Proof.
  revert l. induction is as [|j is IH]; intros l; [discriminate|]. cbn [list_resolve].
  set (k := if j <? 0 then zlen l + j else j). destruct ((k <? 0) || (zlen l <=? k)) eqn:E; [discriminate|].
  apply range_dec in E. destruct (znth_in_range l k E) as [v Hv]. apply zat_ok in Hv as Hv'. rewrite Hv'. cbn [obind].
  destruct is as [|i2 is]; [discriminate|]. destruct v as [a|l1]; [discriminate|]. specialize (IH l1).
  destruct (list_resolve l1 (i2 :: is)); cbn [obind]; congruence.
Qed.
Lemma denotes_at {A} o (l : list (lval A)) is p : denotes o l is p -> exists w, at_path (Lst l) p w.
Proof.
  induction 1 as [l i k [R _]|l i k l' is p [R _] Hk Hd [w IH]].
  - destruct (znth_in_range l k R) as [v Hv]. exists v. econstructor; [exact Hv|constructor].
  - exists w. econstructor; eauto.
Qed.
Lemma denotes_ne {A} o (l : list (lval A)) is p : denotes o l is p -> is <> [] /\ p <> [].
Proof. destruct 1; split; discriminate. Qed.
Lemma mapM_single o is : mapM (item_int o) (map single is) = Ok (map (fun i => i - o) is).
Proof. induction is as [|i is IH]; [reflexivity|]. cbn [map mapM item_int single]. change (1 =? 1) with true. cbn iota. change (zat [i] 0) with (Ok i). cbn [obind]. rewrite IH. reflexivity. Qed.
Lemma listSelection_ints {A} o is (l : list (lval A)) : listSelection o false (map single is) l = list_resolve l (map (fun i => i - o) is).
Proof. unfold listSelection. rewrite andb_false_r, mapM_single. reflexivity. Qed.
Lemma list_walk_spec {A} p (l : list (lval A)) w : at_path (Lst l) p w -> list_walk l p = Ok w.
Proof.
  revert l. induction p as [|k p IH]; intros l H; [inversion H; reflexivity|]. cbn [list_walk].
  inversion H as [|l0 k' v' p' w' Hk Hp]; subst. apply zat_ok in Hk as Hk'. rewrite Hk'. cbn [obind].
  destruct p as [|k2 p]; [inversion Hp; reflexivity|]. inversion Hp; subst. apply IH, Hp.
Qed.

(* -------- leaves -------- *)
Lemma fold_app {A B} (f : A -> list B) l acc : fold_left (fun res e => res ++ f e) l acc = acc ++ flat_map f l.
Proof. revert acc. induction l as [|x l IH]; intros acc; cbn [fold_left flat_map]; [rewrite app_nil_r; reflexivity|]. rewrite IH, app_assoc. reflexivity. Qed.
Lemma enlist_f_list {A} (l : list (lval A)) : enlist_f (Lst l) = flat_map enlist_f l.
Proof. cbn [enlist_f]. rewrite fold_app. reflexivity. Qed.
Lemma enlist_f_atoms {A} (v : lval A) : exists xs, enlist_f v = map Atom xs.
Proof.
  induction v as [a|l IH] using lval_ind'; [exists [a]; reflexivity|]. rewrite enlist_f_list.
  induction IH as [|x l [xs Hx] _ [ys Hy]]; [exists []; reflexivity|]. exists (xs ++ ys). cbn [flat_map]. rewrite Hx, Hy, map_app. reflexivity.
Qed.
Lemma SS_app {X} (R : X -> X -> Prop) l1 l2 : StronglySorted R l1 -> StronglySorted R l2 -> (forall x y, In x l1 -> In y l2 -> R x y) -> StronglySorted R (l1 ++ l2).
Proof.
  induction 1 as [|x l1 H1 IH F]; intros H2 H; [exact H2|]. cbn. constructor.
  - apply IH; [exact H2|]. intros y z Hy Hz. apply H; [right; exact Hy|exact Hz].
  - apply Forall_app. split; [exact F|]. apply Forall_forall. intros y Hy. apply H; [left; reflexivity|exact Hy].
Qed.
Lemma SS_map {X Y} (R : X -> X -> Prop) (R' : Y -> Y -> Prop) (f : X -> Y) l : (forall x y, R x y -> R' (f x) (f y)) -> StronglySorted R l -> StronglySorted R' (map f l).
Proof.
  intros H. induction 1 as [|x l Hl IH F]; [constructor|]. cbn. constructor; [exact IH|]. apply Forall_forall. intros y Hy. apply in_map_iff in Hy as (z & <- & Hz).
  rewrite Forall_forall in F. apply H, F, Hz.
Qed.
Lemma leaf_paths {A} (v : lval A) : exists ps xs, enlist_f v = map Atom xs /\ Forall2 (fun p x => at_path v p (Atom x)) ps xs /\
  StronglySorted before ps /\ forall p x, at_path v p (Atom x) -> In p ps.
Proof.
  induction v as [a|l IH] using lval_ind'.
  { exists [[]], [a]. split; [reflexivity|]. split; [constructor; [constructor|constructor]|]. split; [repeat constructor|].
    intros p x H. inversion H; subst. left. reflexivity. }
  (* the suffix of l starting at offset o *)
  assert (G : forall pre suf, pre ++ suf = l -> exists ps xs, flat_map enlist_f suf = map Atom xs /\
     Forall2 (fun p x => at_path (Lst l) p (Atom x)) ps xs /\ StronglySorted before ps /\
     (forall p, In p ps -> exists k q, p = k :: q /\ zlen pre <= k) /\
     (forall k q x, zlen pre <= k -> at_path (Lst l) (k :: q) (Atom x) -> In (k :: q) ps)).
  { intros pre suf. revert pre. induction suf as [|v suf IHs]; intros pre El.
    - exists [], []. split; [reflexivity|]. split; [constructor|]. split; [constructor|]. split; [intros ? []|]. intros k q x Hk H.
      inversion H as [|l0 k' v' p' w' Hk' Hp]; subst. apply znth_some_range in Hk'. rewrite app_nil_r in Hk'. lia.
    - destruct (IHs (pre ++ [v])) as (ps & xs & E1 & E2 & E3 & E4 & E5); [rewrite <- app_assoc; exact El|].
      assert (Hv : znth l (zlen pre) = Some v).
      { rewrite <- El, znth_app_r by lia. rewrite Z.sub_diag. apply znth_cons_0. }
      rewrite Forall_forall in IH. destruct (IH v) as (qs & ys & F1 & F2 & F3 & F4); [apply (znth_In _ _ _ Hv)|].
      exists (map (cons (zlen pre)) qs ++ ps), (ys ++ xs). split; [cbn [flat_map]; rewrite F1, E1, map_app; reflexivity|]. split.
      { apply Forall2_app; [|exact E2]. clear - F2 Hv. induction F2 as [|q y qs ys Hq _ IHq]; constructor; [econstructor; eauto|exact IHq]. }
      split; [|split].
      + apply SS_app; [|exact E3|].
        * apply SS_map with (R := before); [intros x y Hxy; apply before_tail, Hxy|exact F3].
        * intros p q Hp Hq. apply in_map_iff in Hp as (p' & <- & _). apply E4 in Hq as (k & q' & -> & Hk).
          apply before_head. rewrite zlen_app in Hk. change (zlen [v]) with 1 in Hk. lia.
      + intros p Hp. apply in_app_iff in Hp as [Hp|Hp].
        * apply in_map_iff in Hp as (p' & <- & _). exists (zlen pre), p'. split; [reflexivity|lia].
        * apply E4 in Hp as (k & q & -> & Hk). exists k, q. split; [reflexivity|]. rewrite zlen_app in Hk. change (zlen [v]) with 1 in Hk. lia.
      + intros k q x Hk H. apply in_app_iff. destruct (Z.eq_dec k (zlen pre)) as [->|Hne].
        * left. apply in_map. inversion H as [|l0 k' v' p' w' Hk' Hp]; subst. rewrite Hv in Hk'. injection Hk' as <-. apply (F4 _ _ Hp).
        * right. apply (E5 k q x); [|exact H]. rewrite zlen_app. change (zlen [v]) with 1. lia. }
  destruct (G [] l eq_refl) as (ps & xs & E1 & E2 & E3 & E4 & E5). exists ps, xs. rewrite enlist_f_list. split; [exact E1|]. split; [exact E2|]. split; [exact E3|].
  intros p x H. inversion H as [|l0 k v' q w' Hk' Hp]; subst. apply (E5 k q x); [|exact H]. apply znth_some_range in Hk'. change (zlen []) with 0. lia.
Qed.

(* -------- depth -------- *)
Lemma Depth_list {A} (l : list (lval A)) (d : Z) : Depth (Lst l) = d <->
  (1 <= d /\ (forall v l', In v l -> v = Lst l' -> 1 + Depth v <= d) /\ (d = 1 \/ exists v l', In v l /\ v = Lst l' /\ d = 1 + Depth v)).
Proof.
  cbn [Depth].
  assert (G : forall (l : list (lval A)) m, 1 <= m -> let r := fold_left (fun mx e => match e with Lst _ => if mx <? 1 + Depth e then 1 + Depth e else mx | Atom _ => mx end) l m in
     m <= r /\ (forall v l', In v l -> v = Lst l' -> 1 + Depth v <= r) /\ (r = m \/ exists v l', In v l /\ v = Lst l' /\ r = 1 + Depth v)).
  { clear. induction l as [|v l IH]; intros m Hm; cbn [fold_left]; cbv zeta; [split; [lia|]; split; [intros ? ? []|left; reflexivity]|].
    set (m' := match v with Lst _ => if m <? 1 + Depth v then 1 + Depth v else m | Atom _ => m end).
    assert (Hm' : m <= m' /\ (forall l', v = Lst l' -> 1 + Depth v <= m') /\ (m' = m \/ exists l', v = Lst l' /\ m' = 1 + Depth v)).
    { unfold m'. destruct v as [a|l0]; [split; [lia|]; split; [discriminate|left; reflexivity]|].
      destruct (m <? 1 + Depth (Lst l0)) eqn:E; [apply Z.ltb_lt in E|apply Z.ltb_ge in E]; (split; [lia|]); (split; [intros; lia|]); [right; eauto|left; reflexivity]. }
    destruct Hm' as (H1 & H2 & H3). destruct (IH m' ltac:(lia)) as (G1 & G2 & G3). clearbody m'. set (r := fold_left _ l m') in *. clearbody r.
    split; [lia|]. split.
    - intros w l' [<-|Hw] Ew; [specialize (H2 _ Ew); lia|eapply G2; eauto].
    - destruct G3 as [->|(w & l' & Hw & Ew & ->)].
      + destruct H3 as [->|(l' & Ev & ->)]; [left; reflexivity|right; exists v, l'; split; [left; reflexivity|split; [exact Ev|reflexivity]]].
      + right. exists w, l'. split; [right; exact Hw|]. split; [exact Ew|reflexivity]. }
  destruct (G l 1 ltac:(lia)) as (G1 & G2 & G3). set (r := fold_left _ l 1) in *. clearbody r.
  split; [intros <-; split; [lia|]; split; [exact G2|exact G3]|].
  intros (D1 & D2 & D3). 
  assert (r <= d). { destruct G3 as [->|(v & l' & Hv & Ev & ->)]; [lia|eapply D2; eauto]. }
  assert (d <= r). { destruct D3 as [->|(v & l' & Hv & Ev & ->)]; [lia|eapply G2; eauto]. }
  lia.
Qed.
Lemma Depth_path {A} (v : lval A) l : v = Lst l ->
  (exists p l', at_path v p (Lst l') /\ zlen p = Depth v - 1) /\ (forall p l', at_path v p (Lst l') -> zlen p <= Depth v - 1).
Proof.
  revert l. induction v as [a|l0 IH] using lval_ind'; intros l El; [discriminate|]. injection El as <-.
  destruct (proj1 (Depth_list l0 _) eq_refl) as (H1 & H2 & H3). rewrite Forall_forall in IH. split.
  - destruct H3 as [E|(v & l' & Hv & Ev & E)].
    + exists [], l0. split; [constructor|]. rewrite E. reflexivity.
    + destruct (IH v Hv l' Ev) as [(p & l2 & Hp & Lp) _]. apply In_znth in Hv as [k Hk]. exists (k :: p), l2.
      split; [econstructor; eauto|]. rewrite zlen_cons. lia.
  - intros p l' Hp. inversion Hp as [|l1 k v q w' Hk Hq]; subst; [change (zlen []) with 0; lia|]. rewrite zlen_cons.
    pose proof (znth_In _ _ _ Hk) as Hv. assert (exists lv, v = Lst lv) as [lv Ev] by (inversion Hq; subst; eauto).
    destruct (IH v Hv lv Ev) as [_ Hmax]. specialize (Hmax _ _ Hq). specialize (H2 v lv Hv Ev). lia.
Qed.

(* -------- cut -------- *)
Definition above (prev : option Z) (k : Z) : Prop := match prev with Some p => p < k | None => True end.
Lemma cut_idx_spec o n is : forall prev ks, cut_idx o n prev is = Ok ks <->
  Forall2 (means o n) is ks /\ StronglySorted Z.lt ks /\ Forall (above prev) ks.
Proof.
  induction is as [|i is IH]; intros prev ks; cbn [cut_idx].
  - split; [intros [= <-]; repeat constructor|]. intros (H & _ & _). inversion H; reflexivity.
  - set (k := if i - o <? 0 then n + (i - o) else i - o).
    assert (M : 0 <= k < n -> means o n i k).
    { intros E. split; [exact E|]. unfold k. destruct (i - o <? 0) eqn:Ej; [right|left]; [apply Z.ltb_lt in Ej|]; lia. }
    assert (M2 : forall k', means o n i k' -> k' = k /\ 0 <= k < n).
    { intros k' [R C]. assert (k' = k) as ->; [|split; [reflexivity|exact R]].
      unfold k. destruct (i - o <? 0) eqn:Ej; [apply Z.ltb_lt in Ej|apply Z.ltb_ge in Ej]; lia. }
    assert (Hb : (if match prev with Some p => k <=? p | None => false end then Err else
                  if (k <? 0) || (n <=? k) then Err else let* r := cut_idx o n (Some k) is in Ok (k :: r)) = Ok ks <->
                 above prev k /\ 0 <= k < n /\ exists r, cut_idx o n (Some k) is = Ok r /\ ks = k :: r).
    { destruct prev as [p|]; cbn [above].
      - destruct (k <=? p) eqn:Ep; [split; [discriminate|]; intros (H & _); apply Z.leb_le in Ep; lia|]. apply Z.leb_gt in Ep.
        destruct ((k <? 0) || (n <=? k)) eqn:E; [split; [discriminate|]; intros (_ & H & _); apply orb_true_iff in E; rewrite Z.ltb_lt, Z.leb_le in E; lia|].
        apply orb_false_iff in E as [E1 E2]. apply Z.ltb_ge in E1. apply Z.leb_gt in E2.
        split; [|intros (_ & _ & r & -> & ->); reflexivity]. destruct (cut_idx o n (Some k) is) as [r| |]; cbn [obind]; [|discriminate..].
        intros [= <-]. split; [lia|]. split; [lia|]. eauto.
      - destruct ((k <? 0) || (n <=? k)) eqn:E; [split; [discriminate|]; intros (_ & H & _); apply orb_true_iff in E; rewrite Z.ltb_lt, Z.leb_le in E; lia|].
        apply orb_false_iff in E as [E1 E2]. apply Z.ltb_ge in E1. apply Z.leb_gt in E2.
        split; [|intros (_ & _ & r & -> & ->); reflexivity]. destruct (cut_idx o n (Some k) is) as [r| |]; cbn [obind]; [|discriminate..].
        intros [= <-]. split; [exact I|]. split; [lia|]. eauto. }
    rewrite Hb. split.
    + intros (Ha & R & r & Er & ->). apply IH in Er as (F & SS & Fa). split; [constructor; [apply M, R|exact F]|].
      split; [constructor; [exact SS|exact Fa]|]. constructor; [exact Ha|]. eapply Forall_impl; [|exact Fa]. cbn. intros b Hb'. destruct prev; cbn in *; lia.
    + intros (F & SS & Fa). inversion F as [|? k' ? r Hm F']; subst. destruct (M2 _ Hm) as [-> R]. inversion SS as [|? ? SS' Fk]; subst. inversion Fa as [|? ? Ha Fa']; subst.
      split; [exact Ha|]. split; [exact R|]. exists r. split; [|reflexivity]. apply IH. split; [exact F'|]. split; [exact SS'|exact Fk].
Qed.
Lemma cut_idx_nopanic o n is : forall prev, cut_idx o n prev is <> Panic.
Proof.
  induction is as [|i is IH]; intros prev; cbn [cut_idx]; [discriminate|].
  set (k := if i - o <? 0 then n + (i - o) else i - o). clearbody k.
  destruct (match prev with Some p => k <=? p | None => false end); [discriminate|]. destruct ((k <? 0) || (n <=? k)); [discriminate|].
  specialize (IH (Some k)). destruct (cut_idx o n (Some k) is); cbn [obind]; congruence.
Qed.
Lemma slice_ok {A} (l : list A) a b : 0 <= a <= b -> b <= zlen l -> slice l a b = Ok (firstn (Z.to_nat (b - a)) (skipn (Z.to_nat a) l)).
Proof. intros H1 H2. unfold slice. rewrite (proj2 (Z.ltb_ge a 0)), (proj2 (Z.ltb_ge b a)), (proj2 (Z.ltb_ge (zlen l) b)) by lia. reflexivity. Qed.
(* the pieces of the list between the positions ks *)
Fixpoint pieces_of {A} (r : list A) (ks : list Z) : list (list A) :=
  match ks with
  | [] => []
  | k :: ks' => firstn (Z.to_nat (match ks' with k2 :: _ => k2 | [] => zlen r end - k)) (skipn (Z.to_nat k) r) :: pieces_of r ks'
  end.
Lemma pieces_len {A} (r : list A) ks : zlen (pieces_of r ks) = zlen ks.
Proof. induction ks as [|k ks IH]; [reflexivity|]. cbn [pieces_of]. rewrite !zlen_cons, IH. reflexivity. Qed.
Lemma skipn_skipn_Z {A} (r : list A) a b : 0 <= a <= b -> skipn (Z.to_nat (b - a)) (skipn (Z.to_nat a) r) = skipn (Z.to_nat b) r.
Proof.
  intros H. replace (Z.to_nat b) with (Z.to_nat a + Z.to_nat (b - a))%nat by lia. generalize (Z.to_nat (b - a)) (Z.to_nat a). clear. intros m n.
  revert r. induction n as [|n IH]; intros r; [reflexivity|]. destruct r; [cbn; destruct m; reflexivity|]. cbn. apply IH.
Qed.
Lemma pieces_concat {A} (r : list A) ks : StronglySorted Z.lt ks -> Forall (fun k => 0 <= k < zlen r) ks ->
  concat (pieces_of r ks) = match ks with [] => [] | k :: _ => skipn (Z.to_nat k) r end.
Proof.
  induction 1 as [|k ks SS IH Fk]; intros F; [reflexivity|]. inversion F as [|? ? Hk F']; subst. cbn [pieces_of concat]. rewrite (IH F').
  destruct ks as [|k2 ks].
  - rewrite app_nil_r. apply firstn_all2. unfold zlen in *. rewrite skipn_length. lia.
  - inversion Fk as [|? ? Hlt _]; subst. inversion F' as [|? ? Hk2 _]; subst.
    rewrite <- (skipn_skipn_Z r k k2) by lia. apply firstn_skipn.
Qed.
Lemma pieces_elem {A} (r : list A) ks i k p : StronglySorted Z.lt ks -> Forall (fun k => 0 <= k < zlen r) ks ->
  znth ks i = Some k -> znth (pieces_of r ks) i = Some p -> p <> [] /\ forall j, 0 <= j < zlen p -> znth p j = znth r (k + j).
Proof.
  intros SS. revert i. induction SS as [|k0 ks SS IH Fk]; intros i F Hi Hp; [apply znth_some_range in Hi; change (zlen []) with 0 in Hi; lia|].
  inversion F as [|? ? Hk F']; subst. pose proof (znth_some_range _ _ _ Hi) as Ri. destruct (Z.eq_dec i 0) as [->|Ni].
  - rewrite znth_cons_0 in Hi. injection Hi as ->. cbn [pieces_of] in Hp. rewrite znth_cons_0 in Hp. injection Hp as <-.
    set (m := match ks with k2 :: _ => k2 | [] => zlen r end - k).
    assert (Hm : 0 < m <= zlen r - k).
    { unfold m. destruct ks as [|k2 ks]; [lia|]. inversion Fk; inversion F'; subst. lia. }
    assert (L : zlen (firstn (Z.to_nat m) (skipn (Z.to_nat k) r)) = m).
    { unfold zlen. rewrite firstn_length, skipn_length. unfold zlen in Hm. lia. }
    split; [intros E; rewrite E in L; change (zlen []) with 0 in L; lia|]. intros j Hj. rewrite L in Hj.
    rewrite znth_firstn, znth_skipn by lia. f_equal. lia.
  - rewrite znth_cons_pos in Hi by lia. cbn [pieces_of] in Hp. rewrite znth_cons_pos in Hp by lia. apply (IH (i - 1)); assumption.
Qed.
Lemma cut_pieces {A} o is ks (r : list (lval A)) : Forall2 (means o (zlen r)) is ks -> StronglySorted Z.lt ks -> zlen is <> 1 ->
  cut o (Some ([zlen is], is)) r = Ok (map Lst (pieces_of r ks)).
Proof.
  intros F SS N. unfold cut. change (negb (zlen [zlen is] =? 1)) with false. cbv iota.
  assert (E : cut_idx o (zlen r) None is = Ok ks) by (apply cut_idx_spec; split; [exact F|]; split; [exact SS|]; apply Forall_forall; intros; exact I).
  rewrite E. cbn [obind]. rewrite <- (Forall2_zlen _ _ _ F). rewrite (proj2 (Z.eqb_neq _ _) N). rewrite (Forall2_zlen _ _ _ F).
  assert (R : Forall (fun k => 0 <= k < zlen r) ks). { clear - F. induction F as [|i k is ks [H _] F IH]; constructor; [exact H|exact IH]. }
  clear E F N is. 
  assert (G : forall pre suf, pre ++ suf = ks -> mapM (fun i => let* a := zat ks i in let* b := (if i <? zlen ks - 1 then zat ks (i + 1) else Ok (zlen r)) in
      let* s := slice r a b in Ok (Lst s)) (map (fun i => zlen pre + i) (zseq (zlen suf))) = Ok (map Lst (pieces_of r suf))).
  { intros pre suf. revert pre. induction suf as [|k suf IHs]; intros pre El; [reflexivity|].
    pose proof (zlen_nonneg suf) as Hs. rewrite zlen_cons. rewrite zseq_cons by lia. cbn [map mapM].
    replace (1 + zlen suf - 1) with (zlen suf) by lia. rewrite map_map. rewrite Z.add_0_r.
    assert (Hk : znth ks (zlen pre) = Some k) by (rewrite <- El, znth_app_r by lia; rewrite Z.sub_diag; apply znth_cons_0).
    rewrite (proj2 (zat_ok _ _ _) Hk). cbn [obind].
    assert (Lk : zlen ks = zlen pre + 1 + zlen suf) by (rewrite <- El, zlen_app, zlen_cons; lia).
    set (b := match suf with k2 :: _ => k2 | [] => zlen r end).
    assert (Eb : (if zlen pre <? zlen ks - 1 then zat ks (zlen pre + 1) else Ok (zlen r)) = Ok b).
    { destruct suf as [|k2 suf]; unfold b.
      - change (zlen []) with 0 in *. rewrite (proj2 (Z.ltb_ge _ _)) by lia. reflexivity.
      - pose proof (zlen_nonneg suf). rewrite zlen_cons in *. rewrite (proj2 (Z.ltb_lt _ _)) by lia. apply zat_ok. rewrite <- El, znth_app_r by lia.
        replace (zlen pre + 1 - zlen pre) with 1 by lia. rewrite znth_cons_pos by lia. apply znth_cons_0. }
    rewrite Eb. cbn [obind].
    assert (Hr : 0 <= k < zlen r) by (rewrite Forall_forall in R; apply R; apply (znth_In _ _ _ Hk)).
    assert (Hb : k < b <= zlen r).
    { unfold b. destruct suf as [|k2 suf]; [lia|]. split.
      - rewrite <- El in SS. clear - SS. induction pre as [|x pre IH]; cbn in SS; inversion SS as [|? ? SS' Fx]; subst; [inversion Fx; subst; lia|apply IH, SS'].
      - rewrite Forall_forall in R. assert (In k2 ks) by (rewrite <- El; apply in_app_iff; right; right; left; reflexivity). apply R in H. lia. }
    rewrite slice_ok by lia. cbn [obind]. cbn [pieces_of map].
    specialize (IHs (pre ++ [k])). rewrite <- app_assoc in IHs. specialize (IHs El). rewrite zlen_app in IHs. change (zlen [k]) with 1 in IHs.
    rewrite (map_ext _ (fun i => zlen pre + (i + 1))) in IHs by (intros; lia). rewrite IHs. cbn [obind]. reflexivity. }
  specialize (G [] ks eq_refl). change (zlen []) with 0 in G. rewrite map_ext_in with (g := fun i => i) in G by (intros; lia). rewrite map_id in G. exact G.
Qed.
