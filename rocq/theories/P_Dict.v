(* P_Dict.v -- lemmas for Prop_Dict.v *)
From Verif Require Import Base Eff P_Array M_Dict S_Dict.
Open Scope Z_scope.

Section Map.
  Context {K V : Type} (keq : K -> K -> bool) (Hk : key_equality keq).
  Implicit Types m : gmap K V.
  Lemma keq_refl k : keq k k = true. Proof. apply Hk. reflexivity. Qed.
  Lemma keq_neq a b : a <> b -> keq a b = false.
  Proof. intros H. destruct (keq a b) eqn:E; [|reflexivity]. apply Hk in E. congruence. Qed.
  Lemma keq_dec (a b : K) : {a = b} + {a <> b}.
  Proof. destruct (keq a b) eqn:E; [left; apply Hk, E|right; intros ->; rewrite keq_refl in E; discriminate]. Qed.
  Lemma mget_mset_same m k v : mget keq (mset keq m k v) k = Some v.
  Proof.
    induction m as [|[k' v'] m IH]; cbn [mset mget]; [rewrite keq_refl; reflexivity|].
    destruct (keq k' k) eqn:E; cbn [mget]; [rewrite keq_refl; reflexivity|]. rewrite E. exact IH.
  Qed.
  Lemma mget_mset_other m k v k' : k' <> k -> mget keq (mset keq m k v) k' = mget keq m k'.
  Proof.
    intros N. induction m as [|[k0 v0] m IH]; cbn [mset mget]; [rewrite keq_neq by congruence; reflexivity|].
    destruct (keq k0 k) eqn:E; cbn [mget].
    - apply Hk in E. subst k0. rewrite !keq_neq by congruence. reflexivity.
    - rewrite IH. reflexivity.
  Qed.
  Lemma mget_mset m k v k' : mget keq (mset keq m k v) k' = if keq k k' then Some v else mget keq m k'.
  Proof. destruct (keq_dec k k') as [->|N]; [rewrite keq_refl; apply mget_mset_same|rewrite keq_neq by exact N; apply mget_mset_other; congruence]. Qed.
  Lemma mset_absent m k v : mget keq m k = None -> mset keq m k v = m ++ [(k, v)].
  Proof.
    induction m as [|[k' v'] m IH]; cbn [mset mget]; [reflexivity|]. destruct (keq k' k); [discriminate|]. intros H. rewrite IH by exact H. reflexivity.
  Qed.
  Lemma mget_None m k : mget keq m k = None <-> ~ In k (map fst m).
  Proof.
    induction m as [|[k' v'] m IH]; cbn [mget map fst In]; [split; [intros _ []|reflexivity]|].
    destruct (keq_dec k' k) as [->|N].
    - rewrite keq_refl. split; [discriminate|]. intros H. exfalso. apply H. left. reflexivity.
    - rewrite keq_neq by exact N. rewrite IH. split; [intros H [?|?]; [congruence|auto]|intros H ?; apply H; right; assumption].
  Qed.
  Lemma mget_Some_In m k v : mget keq m k = Some v -> In (k, v) m.
  Proof.
    induction m as [|[k' v'] m IH]; cbn [mget]; [discriminate|]. destruct (keq_dec k' k) as [->|N].
    - rewrite keq_refl. intros [= ->]. left. reflexivity.
    - rewrite keq_neq by exact N. intros H. right. auto.
  Qed.
  Lemma In_mget m k v : NoDup (map fst m) -> In (k, v) m -> mget keq m k = Some v.
  Proof.
    induction m as [|[k' v'] m IH]; cbn [mget map fst]; intros N H; [destruct H|]. inversion N as [|? ? N1 N2]; subst. destruct H as [E|H].
    - injection E as -> ->. rewrite keq_refl. reflexivity.
    - rewrite keq_neq; [auto|]. intros ->. apply N1. apply (in_map fst) in H. exact H.
  Qed.
End Map.

Section D.
  Context {K V : Type} (keq : K -> K -> bool) (Hk : key_equality keq).
  Notation prop := (@proper K V keq).
  Implicit Types d e : dict K V.
  Notation AtK := (@At K V keq).
  Definition same (d e : dict K V) : Prop := keysOf d = keysOf e /\ forall k, AtK d k = AtK e k.
  Definition sets (d : dict K V) (kvs : list (K * V)) : dict K V := fold_left (fun d kv => DSet keq d (fst kv) (snd kv)) kvs d.

  Lemma At_DSet d k v k' : AtK (DSet keq d k v) k' = if keq k k' then Some v else AtK d k'.
  Proof. apply mget_mset, Hk. Qed.
  Lemma At_DSet_same d k v : AtK (DSet keq d k v) k = Some v.
  Proof. rewrite At_DSet, (keq_refl keq Hk). reflexivity. Qed.
  Lemma At_DSet_other d k v k' : k' <> k -> AtK (DSet keq d k v) k' = AtK d k'.
  Proof. intros N. rewrite At_DSet, (keq_neq keq Hk) by congruence. reflexivity. Qed.
  Lemma keys_DSet_in d k v : prop d -> In k (keysOf d) -> keysOf (DSet keq d k v) = keysOf d.
  Proof. intros [_ P] H. apply P in H as [w H]. unfold DSet, AtK, At in *. rewrite H. reflexivity. Qed.
  Lemma keys_DSet_new d k v : prop d -> ~ In k (keysOf d) -> keysOf (DSet keq d k v) = keysOf d ++ [k].
  Proof. intros [_ P] H. unfold DSet. destruct (mget keq (mapOf d) k) as [w|] eqn:E; [|reflexivity]. exfalso. apply H, P. exists w. exact E. Qed.
  Lemma NoDup_snoc {X} (l : list X) x : NoDup l -> ~ In x l -> NoDup (l ++ [x]).
  Proof.
    induction 1 as [|y l Hy Hl IH]; intros N; cbn; [constructor; [intros []|constructor]|]. constructor.
    - rewrite in_app_iff. cbn. intros [?|[->|[]]]; [auto|]. apply N. left. reflexivity.
    - apply IH. intros ?. apply N. right. assumption.
  Qed.
  Lemma proper_DSet d k v : prop d -> prop (DSet keq d k v).
  Proof.
    intros P. destruct (in_dec (keq_dec keq Hk) k (keysOf d)) as [H|H].
    - split; [rewrite keys_DSet_in by assumption; apply P|]. intros k'. rewrite keys_DSet_in by assumption. rewrite At_DSet.
      destruct (keq_dec keq Hk k k') as [<-|N]; [rewrite (keq_refl keq Hk); split; eauto|rewrite (keq_neq keq Hk) by exact N; apply P].
    - split; [rewrite keys_DSet_new by assumption; apply NoDup_snoc; [apply P|exact H]|]. intros k'. rewrite keys_DSet_new by assumption.
      rewrite At_DSet, in_app_iff. cbn. destruct (keq_dec keq Hk k k') as [<-|N]; [rewrite (keq_refl keq Hk); split; eauto|].
      rewrite (keq_neq keq Hk) by exact N. rewrite <- (proj2 P k'). split; [intros [?|[?|[]]]; [assumption|congruence]|auto].
  Qed.
  Lemma proper_sets kvs d : prop d -> prop (sets d kvs).
  Proof. revert d. induction kvs as [|kv kvs IH]; intros d P; [exact P|]. cbn. apply IH, proper_DSet, P. Qed.
  Lemma same_refl d : same d d. Proof. split; reflexivity. Qed.
  Lemma same_trans d e g : same d e -> same e g -> same d g.
  Proof. intros [A1 A2] [B1 B2]. split; [congruence|]. intros k. rewrite A2. apply B2. Qed.
  Lemma same_sym d e : same d e -> same e d. Proof. intros [A1 A2]. split; [congruence|]. intros k. symmetry. apply A2. Qed.
  Lemma same_proper d e : same d e -> prop d -> prop e.
  Proof. intros [A1 A2] [P1 P2]. split; [congruence|]. intros k. rewrite <- A1, <- A2. apply P2. Qed.
  Lemma same_DSet d e k v : same d e -> same (DSet keq d k v) (DSet keq e k v).
  Proof.
    intros [A1 A2]. split.
    - unfold DSet. specialize (A2 k). unfold At in A2. rewrite A2, A1. destruct (mget keq (mapOf e) k); reflexivity.
    - intros k'. rewrite !At_DSet, A2. reflexivity.
  Qed.
  Lemma same_sets kvs d e : same d e -> same (sets d kvs) (sets e kvs).
  Proof. revert d e. induction kvs as [|kv kvs IH]; intros d e H; [exact H|]. cbn. apply IH, same_DSet, H. Qed.

  (* ---- histories ---- *)
  Lemma first_order_snoc (l ks : list K) k : first_order l ks -> exists ks', first_order (l ++ [k]) ks' /\ (ks' = ks /\ In k l \/ ks' = ks ++ [k] /\ ~ In k l).
  Proof.
    intros H. destruct (in_dec (keq_dec keq Hk) k l) as [I|I].
    - exists ks. split; [apply fo_old; assumption|left; split; [reflexivity|exact I]].
    - exists (ks ++ [k]). split; [apply fo_new; assumption|right; split; [reflexivity|exact I]].
  Qed.
  Lemma first_order_In (l ks : list K) k : first_order l ks -> (In k ks <-> In k l).
  Proof.
    induction 1 as [|l ks k0 H IH N|l ks k0 H IH I]; [reflexivity| |]; rewrite ?in_app_iff; cbn.
    - rewrite IH. reflexivity.
    - rewrite IH. split; [auto|]. intros [?|[<-|[]]]; assumption.
  Qed.
  Lemma last_given_snoc (h : list (K * V)) k v k' w : last_given (h ++ [(k', w)]) k v <-> k' = k /\ w = v \/ k' <> k /\ last_given h k v.
  Proof.
    split.
    - intros (h1 & h2 & E & N). destruct (exists_last (l := (k, v) :: h2)) as (h3 & [k2 v2] & E2); [discriminate|].
      assert (E3 : h1 ++ h3 = h /\ (k2, v2) = (k', w)).
      { rewrite E2 in E. rewrite app_assoc in E. apply app_inj_tail in E as [? ?]. split; congruence. }
      destruct E3 as [E3 E4]. injection E4 as -> ->. destruct h3 as [|p h3].
      + injection E2 as -> -> ->. left. split; reflexivity.
      + injection E2 as <- ->. right. rewrite map_app, in_app_iff in N. cbn in N. split; [intros ->; apply N; right; left; reflexivity|].
        exists h1, h3. split; [symmetry; exact E3|]. intros ?. apply N. left. assumption.
    - intros [[-> ->]|[N (h1 & h2 & -> & N2)]].
      + exists h, []. split; [reflexivity|intros []].
      + exists h1, (h2 ++ [(k', w)]). split; [rewrite <- app_assoc; reflexivity|]. rewrite map_app, in_app_iff. cbn. intros [?|[?|[]]]; auto.
  Qed.
  Definition hist (d : dict K V) (h : list (K * V)) : Prop :=
    first_order (map fst h) (keysOf d) /\ (forall k v, AtK d k = Some v <-> last_given h k v).
  Lemma hist_DSet d h k v : prop d -> hist d h -> hist (DSet keq d k v) (h ++ [(k, v)]).
  Proof.
    intros P [H1 H2]. split.
    - rewrite map_app. cbn [map fst]. destruct (in_dec (keq_dec keq Hk) k (keysOf d)) as [I|I].
      + rewrite keys_DSet_in by assumption. apply fo_old; [exact H1|]. apply (first_order_In _ _ _ H1), I.
      + rewrite keys_DSet_new by assumption. apply fo_new; [exact H1|]. intros J. apply I, (first_order_In _ _ _ H1), J.
    - intros k' v'. rewrite last_given_snoc, At_DSet. destruct (keq_dec keq Hk k k') as [<-|N].
      + rewrite (keq_refl keq Hk). split; [intros [= ->]; left; split; reflexivity|]. intros [[_ ->]|[? _]]; congruence.
      + rewrite (keq_neq keq Hk) by exact N. rewrite H2. split; [right; split; assumption|]. intros [[? _]|[_ ?]]; [congruence|assumption].
  Qed.
  Lemma hist_sets kvs d h : prop d -> hist d h -> hist (sets d kvs) (h ++ kvs).
  Proof.
    revert d h. induction kvs as [|[k v] kvs IH]; intros d h P H; [rewrite app_nil_r; exact H|]. cbn.
    replace (h ++ (k, v) :: kvs) with ((h ++ [(k, v)]) ++ kvs) by (rewrite <- app_assoc; reflexivity).
    apply IH; [apply proper_DSet, P|apply hist_DSet; assumption].
  Qed.
  Lemma hist_same d e h : same d e -> hist d h -> hist e h.
  Proof. intros [A1 A2] [H1 H2]. split; [rewrite <- A1; exact H1|]. intros k v. rewrite <- A2. apply H2. Qed.
  Lemma first_order_NoDup_self (l : list K) : NoDup l -> first_order l l.
  Proof.
    induction l as [|k l IH] using rev_ind; intros N; [constructor|]. apply NoDup_remove in N as [N1 N2]. rewrite app_nil_r in N1, N2.
    apply fo_new; [apply IH, N1|exact N2].
  Qed.
  Lemma hist_initial d : prop d -> exists h, map fst h = keysOf d /\ hist d h /\ (forall k v, In (k, v) h <-> AtK d k = Some v).
  Proof.
    intros [P1 P2]. 
    assert (G : forall ks, incl ks (keysOf d) -> exists h, map fst h = ks /\ forall k v, In (k, v) h <-> In k ks /\ AtK d k = Some v).
    { induction ks as [|k ks IH]; intros I; [exists []; split; [reflexivity|]; intros k v; cbn; tauto|].
      destruct IH as (h & E & H); [intros x Hx; apply I; right; exact Hx|]. destruct (proj1 (P2 k)) as [w Hw]; [apply I; left; reflexivity|].
      exists ((k, w) :: h). split; [cbn; rewrite E; reflexivity|]. intros k' v'. cbn. rewrite H. split.
      - intros [[= <- <-]|[? ?]]; split; auto.
      - intros [[<-|?] HA]; [left; congruence|right; split; assumption]. }
    destruct (G (keysOf d) (incl_refl _)) as (h & E & H). exists h. split; [exact E|].
    assert (HI : forall k v, In (k, v) h <-> AtK d k = Some v). { intros k v. rewrite H. split; [tauto|]. intros HA. split; [apply P2; eauto|exact HA]. }
    split; [|exact HI]. split; [rewrite E; apply first_order_NoDup_self, P1|]. intros k v. rewrite <- HI. split.
    - intros I. apply in_split in I as (h1 & h2 & ->). exists h1, h2. split; [reflexivity|]. rewrite <- E in P1. rewrite map_app in P1. cbn in P1.
      apply NoDup_remove_2 in P1. intros ?. apply P1, in_app_iff. right. assumption.
    - intros (h1 & h2 & -> & _). apply in_app_iff. right. left. reflexivity.
  Qed.

  (* ---- fold of mset ---- *)
  Lemma mget_fold kvs (m : gmap K V) k : mget keq (fold_left (fun m kv => mset keq m (fst kv) (snd kv)) kvs m) k =
    match mget keq (rev kvs) k with Some v => Some v | None => mget keq m k end.
  Proof.
    revert m. induction kvs as [|[k0 v0] kvs IH]; intros m; [reflexivity|]. cbn [fold_left rev fst snd]. rewrite IH.
    assert (R : forall l, mget keq (l ++ [(k0, v0)]) k = match mget keq l k with Some v => Some v | None => if keq k0 k then Some v0 else None end).
    { induction l as [|[k1 v1] l IHl]; cbn [app mget]; [reflexivity|]. destruct (keq k1 k); [reflexivity|exact IHl]. }
    rewrite R, (mget_mset keq Hk). destruct (mget keq (rev kvs) k); [reflexivity|]. destruct (keq k0 k); reflexivity.
  Qed.
  Lemma ofpairs_At kvs k v : NoDup (map fst kvs) -> (AtK (ofpairs keq kvs) k = Some v <-> In (k, v) kvs).
  Proof.
    intros N. unfold At, ofpairs. cbn [mapOf]. rewrite mget_fold. cbn [mget].
    assert (N' : NoDup (map fst (rev kvs))) by (rewrite map_rev; apply NoDup_rev; exact N).
    split.
    - destruct (mget keq (rev kvs) k) eqn:E; [|discriminate]. intros [= ->]. apply (mget_Some_In keq Hk) in E. apply in_rev. exact E.
    - intros I. apply in_rev in I. rewrite (In_mget keq Hk _ _ _ N' I). reflexivity.
  Qed.
  Lemma ofpairs_proper kvs : NoDup (map fst kvs) -> prop (ofpairs keq kvs).
  Proof.
    intros N. split; [exact N|]. intros k. cbn [ofpairs keysOf]. split.
    - intros I. apply in_map_iff in I as ([k' v] & <- & I). exists v. apply ofpairs_At; assumption.
    - intros [v H]. apply ofpairs_At in H; [|exact N]. apply (in_map fst) in H. exact H.
  Qed.
End D.

Section A.
  Context {K V : Type} (keq : K -> K -> bool) (Hk : key_equality keq) (empty : V).
  Notation prop := (@proper K V keq).
  Implicit Types d e : dict K V.
  Notation AtK := (@At K V keq).

  (* the map of indexes belonging to a list of keys *)
  Definition imap (o : Z) (ks : list K) : gmap K Z := combine ks (map (fun i => i + o) (zseq (zlen ks))).
  Lemma map_fst_combine {X Y} (a : list X) (b : list Y) : zlen a = zlen b -> map fst (combine a b) = a.
  Proof.
    unfold zlen. intros H. assert (H' : length a = length b) by lia. clear H. revert b H'.
    induction a as [|x a IH]; intros [|y b] H; try discriminate; [reflexivity|]. cbn. rewrite IH by (cbn in H; lia). reflexivity.
  Qed.
  Lemma zlen_imap_r o (ks : list K) : zlen ks = zlen (map (fun i => i + o) (zseq (zlen ks))).
  Proof. rewrite zlen_map, zlen_zseq. pose proof (zlen_nonneg ks). lia. Qed.
  Lemma imap_fst o ks : map fst (imap o ks) = ks.
  Proof. apply map_fst_combine, zlen_imap_r. Qed.
  Lemma imap_snoc o ks k : imap o (ks ++ [k]) = imap o ks ++ [(k, zlen ks + o)].
  Proof.
    unfold imap. rewrite zlen_app. change (zlen [k]) with 1. rewrite zseq_succ by apply zlen_nonneg. rewrite map_app. cbn [map].
    assert (H : length ks = length (map (fun i => i + o) (zseq (zlen ks)))). { pose proof (zlen_imap_r o ks) as H. unfold zlen in H at 1 2. lia. }
    revert H. generalize (map (fun i => i + o) (zseq (zlen ks))) as l. generalize (zlen ks + o) as z. clear. induction ks as [|x ks IH]; intros z [|y l] H; try discriminate; [reflexivity|].
    cbn [app combine]. f_equal. apply IH. cbn in H. lia.
  Qed.
  Lemma zlen_imap o ks : zlen (imap o ks) = zlen ks.
  Proof. rewrite <- (imap_fst o ks) at 2. rewrite zlen_map. reflexivity. Qed.
  Lemma keyindex_imap o ks : NoDup ks -> keyindex keq o ks = imap o ks.
  Proof.
    unfold keyindex. assert (G : forall ks : list K, NoDup ks -> fold_left (fun m ki => mset keq m (fst ki) (snd ki + o)) (combine ks (zseq (zlen ks))) [] = imap o ks).
    { clear ks. induction ks as [|k ks IH] using rev_ind; intros N; [reflexivity|]. apply NoDup_remove in N as [N1 N2]. rewrite app_nil_r in N1, N2.
      rewrite imap_snoc. rewrite zlen_app. change (zlen [k]) with 1. rewrite zseq_succ by apply zlen_nonneg.
      assert (E : combine (ks ++ [k]) (zseq (zlen ks) ++ [zlen ks]) = combine ks (zseq (zlen ks)) ++ [(k, zlen ks)]).
      { assert (H : length ks = length (zseq (zlen ks))). { pose proof (zlen_zseq (zlen ks)) as H. unfold zlen in H at 1. pose proof (zlen_nonneg ks). unfold zlen in *. lia. }
        revert H. generalize (zseq (zlen ks)) as l. generalize (zlen ks) as z. clear. induction ks as [|x ks IH]; intros z [|y l] H; try discriminate; [reflexivity|].
        cbn [app combine]. f_equal. apply IH. cbn in H. lia. }
      rewrite E, fold_left_app, (IH N1). cbn [fold_left fst snd]. apply mset_absent. apply (mget_None keq Hk). rewrite imap_fst. exact N2. }
    apply G.
  Qed.
  Lemma imap_get o ks k i : NoDup ks -> (mget keq (imap o ks) k = Some (i + o) <-> znth ks i = Some k).
  Proof.
    revert k i. induction ks as [|x ks IH] using rev_ind; intros k i N; [split; [discriminate|]; intros H; apply znth_some_range in H; change (zlen []) with 0 in H; lia|].
    apply NoDup_remove in N as [N1 N2]. rewrite app_nil_r in N1, N2. rewrite imap_snoc.
    assert (R : forall l, mget keq (l ++ [(x, zlen ks + o)]) k = match mget keq l k with Some v => Some v | None => if keq x k then Some (zlen ks + o) else None end).
    { induction l as [|[k1 v1] l IHl]; cbn [app mget]; [reflexivity|]. destruct (keq k1 k); [reflexivity|exact IHl]. }
    rewrite R. destruct (mget keq (imap o ks) k) as [j|] eqn:E.
    - assert (Hj : znth ks (j - o) = Some k) by (apply IH; [exact N1|rewrite E; f_equal; lia]). pose proof (znth_some_range _ _ _ Hj) as Rj. split.
      + intros [= ->]. rewrite znth_app_l by lia. replace i with (i + o - o) by lia. exact Hj.
      + intros H. f_equal. pose proof (znth_some_range _ _ _ H) as Ri. rewrite zlen_app in Ri. change (zlen [x]) with 1 in Ri.
        destruct (Z.eq_dec i (zlen ks)) as [->|Ni].
        * rewrite znth_app_r, Z.sub_diag in H by lia. rewrite znth_cons_0 in H. injection H as ->. exfalso. apply N2. apply (znth_In _ _ _ Hj).
        * rewrite znth_app_l in H by lia. apply IH in H; [|exact N1]. rewrite E in H. congruence.
    - apply (mget_None keq Hk) in E. rewrite imap_fst in E. split.
      + destruct (keq x k) eqn:Ex; [|discriminate]. apply Hk in Ex. subst x. intros [= Hi]. assert (i = zlen ks) as -> by lia.
        rewrite znth_app_r, Z.sub_diag by lia. apply znth_cons_0.
      + intros H. pose proof (znth_some_range _ _ _ H) as Ri. rewrite zlen_app in Ri. change (zlen [x]) with 1 in Ri.
        destruct (Z.eq_dec i (zlen ks)) as [->|Ni].
        * rewrite znth_app_r, Z.sub_diag in H by lia. rewrite znth_cons_0 in H. injection H as ->. rewrite (keq_refl keq Hk). reflexivity.
        * rewrite znth_app_l in H by lia. exfalso. apply E, (znth_In _ _ _ H).
  Qed.

  (* the dictionary after creating missing keys *)
  Definition touch (d : dict K V) (ks : list K) : dict K V :=
    fold_left (fun d k => match AtK d k with Some _ => d | None => DSet keq d k empty end) ks d.
  Lemma touch_cons k ks d : touch d (k :: ks) = touch (match AtK d k with Some _ => d | None => DSet keq d k empty end) ks.
  Proof. reflexivity. Qed.
  Lemma touch_proper ks d : prop d -> prop (touch d ks).
  Proof. revert d. induction ks as [|k ks IH]; intros d P; [exact P|]. cbn. apply IH. destruct (AtK d k); [exact P|apply proper_DSet; assumption]. Qed.
  Lemma touch_keys ks d : prop d -> exists ext, keysOf (touch d ks) = keysOf d ++ ext.
  Proof.
    revert d. induction ks as [|k ks IH]; intros d P; [exists []; rewrite app_nil_r; reflexivity|]. rewrite touch_cons.
    destruct (AtK d k) as [v|] eqn:E.
    - apply IH, P.
    - destruct (IH (DSet keq d k empty)) as [ext Hx]; [apply proper_DSet; assumption|]. rewrite Hx. rewrite (keys_DSet_new keq).
      + exists ([k] ++ ext). rewrite app_assoc. reflexivity.
      + exact P.
      + intros I. apply P in I as [v Hv]. congruence.
  Qed.
  Lemma sel_keys_spec o ks d : prop d ->
    exists ints, sel_keys keq empty o (imap o (keysOf d), d) ks = (ints, (imap o (keysOf (touch d ks)), touch d ks)) /\
      Forall2 (fun k i => znth (keysOf (touch d ks)) (i - o) = Some k) ks ints.
  Proof.
    revert d. induction ks as [|k ks IH]; intros d P; [exists []; split; [reflexivity|constructor]|]. cbn [sel_keys].
    unfold sel_key.
    destruct (mget keq (imap o (keysOf d)) k) as [i|] eqn:E.
    - assert (Hi : znth (keysOf d) (i - o) = Some k). { apply (imap_get o); [apply P|]. rewrite E. f_equal. lia. }
      assert (HA : exists v, AtK d k = Some v) by (apply P, (znth_In _ _ _ Hi)). destruct HA as [v HA].
      destruct (IH d P) as (ints & E1 & F). rewrite E1. exists (i :: ints). rewrite touch_cons, HA.
      split; [reflexivity|]. constructor; [|exact F]. destruct (touch_keys ks d P) as [ext ->]. rewrite znth_app_l; [exact Hi|]. apply znth_some_range in Hi. lia.
    - assert (N : ~ In k (keysOf d)). { apply (mget_None keq Hk) in E. rewrite imap_fst in E. exact E. }
      assert (HA : AtK d k = None). { destruct (AtK d k) as [v|] eqn:EA; [|reflexivity]. exfalso. apply N, P. eauto. }
      rewrite (mset_absent keq) by exact E. rewrite zlen_imap, <- imap_snoc.
      rewrite <- (keys_DSet_new keq d k empty P N).
      destruct (IH (DSet keq d k empty)) as (ints & E1 & F); [apply proper_DSet; assumption|]. rewrite E1. exists (zlen (keysOf d) + o :: ints).
      rewrite touch_cons, HA.
      split; [reflexivity|]. constructor; [|exact F]. destruct (touch_keys ks (DSet keq d k empty)) as [ext ->]; [apply proper_DSet; assumption|].
      rewrite (keys_DSet_new keq d k empty P N). rewrite <- app_assoc. replace (zlen (keysOf d) + o - o) with (zlen (keysOf d)) by lia.
      rewrite znth_app_r, Z.sub_diag by lia. apply znth_cons_0.
  Qed.
  Definition argkeys (spec : @keyarg K) : list K := match spec with KOne k => [k] | KArr _ ks => ks end.
  Lemma objSelection_spec o spec d : prop d ->
    exists ints, objSelection keq empty o spec d = (ints, touch d (argkeys spec)) /\
      Forall2 (fun k i => znth (keysOf (touch d (argkeys spec))) (i - o) = Some k) (argkeys spec) ints.
  Proof.
    intros P. unfold objSelection. rewrite keyindex_imap by apply P. fold (argkeys spec).
    destruct (sel_keys_spec o (argkeys spec) d P) as (ints & E & F). rewrite E. exists ints. split; [reflexivity|exact F].
  Qed.
  (* the plain assignment loop sets the pairs *)
  Lemma assign_loop_plain {S} o keys R vec (s : S) : forall ks ints vs i d,
    Forall2 (fun k j => znth keys (j - o) = Some k) ks ints -> zlen vs = zlen ks ->
    (forall n, 0 <= n < zlen ks -> match vec with None => znth vs n = Some R | Some all => znth all (i + n) = znth vs n end) -> 0 <= i ->
    assign_loop keq o keys None R vec i ints d s = ((Ok tt, sets keq d (combine ks vs)), s).
  Proof.
    induction ks as [|k ks IH]; intros ints vs i d F L H Hi; inversion F as [|? j ? ints' Hj F']; subst; [reflexivity|].
    destruct vs as [|v vs]; [rewrite zlen_cons in L; change (zlen []) with 0 in L; pose proof (zlen_nonneg ks); lia|].
    rewrite !zlen_cons in L. cbn [assign_loop]. pose proof (znth_some_range _ _ _ Hj) as Rj.
    rewrite (proj2 (Z.ltb_ge _ _)), (proj2 (Z.leb_gt _ _)) by lia. cbn [orb]. rewrite Hj.
    assert (Ev : (match vec with None => Ok R | Some all => if (i <? 0) || (zlen all <=? i) then Err else zat all i end) = Ok v).
    { pose proof (zlen_nonneg ks). specialize (H 0 ltac:(rewrite zlen_cons; lia)). destruct vec as [all|].
      - rewrite Z.add_0_r, znth_cons_0 in H. pose proof (znth_some_range _ _ _ H) as Ra. rewrite (proj2 (Z.ltb_ge _ _)), (proj2 (Z.leb_gt _ _)) by lia. apply zat_ok, H.
      - rewrite znth_cons_0 in H. congruence. }
    rewrite Ev. cbn [combine sets fold_left fst snd]. apply IH; [exact F'|lia| |lia].
    intros n Hn. specialize (H (n + 1) ltac:(rewrite zlen_cons; lia)). rewrite (znth_cons_pos v vs (n + 1)) in H by lia. replace (n + 1 - 1) with n in H by lia.
    destruct vec; [|exact H]. replace (i + 1 + n) with (i + (n + 1)) by lia. exact H.
  Qed.
  Lemma first_order_fun (l a b : list K) : first_order l a -> first_order l b -> a = b.
  Proof.
    intros H. revert b. induction H as [|l a k H IH N|l a k H IH I]; intros b Hb; inversion Hb as [E|l' b' k' H' N' E|l' b' k' H' I' E].
    - reflexivity.
    - destruct l'; discriminate.
    - destruct l'; discriminate.
    - destruct l; discriminate.
    - apply app_inj_tail in E as [-> ->]. f_equal. apply IH, H'.
    - apply app_inj_tail in E as [-> ->]. contradiction.
    - destruct l; discriminate.
    - apply app_inj_tail in E as [-> ->]. contradiction.
    - apply app_inj_tail in E as [-> ->]. apply IH, H'.
  Qed.
  Lemma fo_sets kvs d : prop d -> first_order (keysOf d ++ map fst kvs) (keysOf (sets keq d kvs)).
  Proof.
    intros P. destruct (hist_initial keq d P) as (h & E & H & _). destruct (hist_sets keq Hk kvs d h P H) as [F _]. rewrite map_app, E in F. exact F.
  Qed.
  Lemma fo_touch ks d : prop d -> first_order (keysOf d ++ ks) (keysOf (touch d ks)).
  Proof.
    assert (G : forall ks d l, prop d -> first_order l (keysOf d) -> first_order (l ++ ks) (keysOf (touch d ks))).
    { clear ks d. induction ks as [|k ks IH]; intros d l P F; [rewrite app_nil_r; exact F|]. rewrite touch_cons.
      replace (l ++ k :: ks) with ((l ++ [k]) ++ ks) by (rewrite <- app_assoc; reflexivity).
      destruct (AtK d k) as [v|] eqn:E.
      - apply IH; [exact P|]. apply fo_old; [exact F|]. apply (first_order_In l _ _ F). apply P. eauto.
      - assert (N : ~ In k (keysOf d)) by (intros I; apply P in I as [v Hv]; congruence).
        apply IH; [apply proper_DSet; assumption|]. rewrite (keys_DSet_new keq) by assumption. apply fo_new; [exact F|]. intros I. apply N, (first_order_In l _ _ F), I. }
    intros P. apply G; [exact P|]. apply first_order_NoDup_self, P.
  Qed.
  Lemma At_sets kvs d k : AtK (sets keq d kvs) k = match mget keq (rev kvs) k with Some v => Some v | None => AtK d k end.
  Proof.
    revert d. induction kvs as [|[k0 v0] kvs IH]; intros d; [reflexivity|]. unfold sets. cbn [fold_left rev fst snd]. fold (sets keq (DSet keq d k0 v0) kvs). rewrite IH.
    assert (R : forall l, mget keq (l ++ [(k0, v0)]) k = match mget keq l k with Some v => Some v | None => if keq k0 k then Some v0 else None end).
    { induction l as [|[k1 v1] l IHl]; cbn [app mget]; [reflexivity|]. destruct (keq k1 k); [reflexivity|exact IHl]. }
    rewrite R, (At_DSet keq Hk). destruct (mget keq (rev kvs) k); [reflexivity|]. destruct (keq k0 k); reflexivity.
  Qed.
  Lemma At_touch_other ks d k : ~ In k ks -> AtK (touch d ks) k = AtK d k.
  Proof.
    revert d. induction ks as [|k0 ks IH]; intros d N; [reflexivity|]. rewrite touch_cons. rewrite IH by (intros ?; apply N; right; assumption).
    destruct (AtK d k0); [reflexivity|]. apply (At_DSet_other keq Hk). intros ->. apply N. left. reflexivity.
  Qed.
  Lemma At_touch_in ks d k v : AtK d k = Some v -> AtK (touch d ks) k = Some v.
  Proof.
    revert d. induction ks as [|k0 ks IH]; intros d H; [exact H|]. rewrite touch_cons. apply IH.
    destruct (AtK d k0) eqn:E; [exact H|]. rewrite (At_DSet_other keq Hk); [exact H|]. intros ->. congruence.
  Qed.
  Lemma touch_sets kvs d : prop d -> same keq (sets keq (touch d (map fst kvs)) kvs) (sets keq d kvs).
  Proof.
    intros P. pose proof (touch_proper (map fst kvs) d P) as PT. split.
    - assert (E : keysOf (sets keq (touch d (map fst kvs)) kvs) = keysOf (touch d (map fst kvs))).
      { assert (G : forall kvs e, prop e -> incl (map fst kvs) (keysOf e) -> keysOf (sets keq e kvs) = keysOf e).
        { clear - Hk. induction kvs as [|[k v] kvs IH]; intros e P I; [reflexivity|]. unfold sets. cbn [fold_left fst snd]. fold (sets keq (DSet keq e k v) kvs).
          assert (Ik : In k (keysOf e)) by (apply I; left; reflexivity). rewrite IH.
          - apply keys_DSet_in; assumption.
          - apply proper_DSet; assumption.
          - rewrite (keys_DSet_in keq) by assumption. intros x Hx. apply I. right. exact Hx. }
        apply G; [exact PT|]. intros k Hin. apply (first_order_In _ _ _ (fo_touch (map fst kvs) d P)). apply in_app_iff. right. exact Hin. }
      rewrite E. apply (first_order_fun (keysOf d ++ map fst kvs)); [apply fo_touch, P|apply fo_sets, P].
    - intros k. rewrite !At_sets. destruct (mget keq (rev kvs) k) eqn:E; [reflexivity|]. apply (mget_None keq Hk) in E. apply At_touch_other.
      rewrite map_rev in E. intros I. apply E, in_rev. rewrite rev_involutive. exact I.
  Qed.
  Context (asArray : V -> option (list Z * list V)).
  Lemma assigns_keys spec R kvs : assigns asArray spec R kvs -> map fst kvs = argkeys spec.
  Proof.
    destruct 1 as [k R|sh k R|sh ks R H|sh ks R rs vs H L G]; cbn; [reflexivity..| |].
    - rewrite map_map. apply map_id.
    - apply map_fst_combine, L.
  Qed.
  Lemma dict_assign_spec {S} o spec R kvs d (s : S) : prop d -> assigns asArray spec R kvs ->
    exists d', dict_assign keq asArray empty o spec None R d s = ((Ok tt, d'), s) /\ same keq d' (sets keq d kvs) /\ prop d'.
  Proof.
    intros P HA. pose proof (assigns_keys _ _ _ HA) as EK. unfold dict_assign. destruct (objSelection_spec o spec d P) as (ints & E & F). rewrite E.
    exists (sets keq (touch d (argkeys spec)) kvs).
    assert (Lk : zlen ints = zlen (argkeys spec)) by (symmetry; apply (Forall2_zlen _ _ _ F)).
    assert (G : forall vec vs, kvs = combine (argkeys spec) vs -> zlen vs = zlen (argkeys spec) ->
       (forall n, 0 <= n < zlen (argkeys spec) -> match vec with None => znth vs n = Some R | Some all => znth all (0 + n) = znth vs n end) ->
       assign_loop keq o (keysOf (touch d (argkeys spec))) None R vec 0 ints (touch d (argkeys spec)) s = (Ok tt, sets keq (touch d (argkeys spec)) kvs, s)).
    { intros vec vs -> Lv H. apply assign_loop_plain; [exact F|exact Lv|exact H|lia]. }
    split; [|rewrite <- EK; split; [apply touch_sets, P|apply proper_sets; [exact Hk|apply touch_proper, P]]].
    unfold assignObject. destruct HA as [k R|sh k R|sh ks R H|sh ks R rs vs H L G1]; cbn [argkeys] in *.
    - change (zlen [k]) with 1 in *. rewrite Lk. change (1 <? 1) with false. cbn iota.
      assert (G' := G None [R] eq_refl eq_refl). replace (match asArray R with Some (_, _) => _ | None => _ end) with (assign_loop (S := S) keq o (keysOf (touch d [k])) None R None 0 ints (touch d [k])).
      + apply G'. intros n Hn. assert (n = 0) as -> by lia. reflexivity.
      + destruct (asArray R) as [[? ?]|]; reflexivity.
    - change (zlen [k]) with 1 in *. rewrite Lk. change (1 <? 1) with false. cbn iota.
      assert (G' := G None [R] eq_refl eq_refl). replace (match asArray R with Some (_, _) => _ | None => _ end) with (assign_loop (S := S) keq o (keysOf (touch d [k])) None R None 0 ints (touch d [k])).
      + apply G'. intros n Hn. assert (n = 0) as -> by lia. reflexivity.
      + destruct (asArray R) as [[? ?]|]; reflexivity.
    - rewrite H. apply (G None (repeat R (length ks))).
      + clear. induction ks as [|k ks IH]; [reflexivity|]. cbn. rewrite <- IH. reflexivity.
      + apply zlen_repeat.
      + intros n Hn. apply znth_repeat. exact Hn.
    - rewrite H. rewrite Lk. rewrite (proj2 (Z.ltb_lt 1 (zlen ks))) by lia. rewrite (proj2 (Z.eqb_eq _ _) L).
      apply (G (Some vs) vs); [reflexivity|symmetry; exact L|]. intros n Hn. reflexivity.
  Qed.
End A.

Section Dp.
  Context {K A : Type} (keq : K -> K -> bool) (Hk : key_equality keq).
  Notation V := (oval K A).
  Context (asArray : V -> option (list Z * list V)) (leaf_index : list (@keyarg K) -> A -> outcome V).
  Implicit Types d e : dict K V.
  Notation AtK := (@At K V keq).
  Notation path := (@at_keys K A keq).

  Lemma lastpos_spec (ks : list K) k : In k ks -> 0 <= lastpos keq ks k /\ znth ks (lastpos keq ks k) = Some k.
  Proof.
    induction ks as [|x ks IH] using rev_ind; [intros []|]. unfold lastpos. rewrite zlen_app. change (zlen [x]) with 1. rewrite zseq_succ by apply zlen_nonneg.
    assert (E : combine (ks ++ [x]) (zseq (zlen ks) ++ [zlen ks]) = combine ks (zseq (zlen ks)) ++ [(x, zlen ks)]).
    { assert (H : length ks = length (zseq (zlen ks))). { pose proof (zlen_zseq (zlen ks)) as H. unfold zlen in H at 1. pose proof (zlen_nonneg ks). unfold zlen in *. lia. }
      revert H. generalize (zseq (zlen ks)) as l. generalize (zlen ks) as z. clear. induction ks as [|y ks IH]; intros z [|w l] H; try discriminate; [reflexivity|].
      cbn [app combine]. f_equal. apply IH. cbn in H. lia. }
    rewrite E, fold_left_app. cbn [fold_left fst snd]. fold (lastpos keq ks k). intros I. destruct (keq x k) eqn:Ex.
    - apply Hk in Ex. subst x. pose proof (zlen_nonneg ks). split; [lia|]. rewrite znth_app_r, Z.sub_diag by lia. apply znth_cons_0.
    - apply in_app_iff in I as [I|[->|[]]]; [|rewrite (keq_refl keq Hk) in Ex; discriminate]. destruct (IH I) as [H1 H2]. split; [exact H1|].
      rewrite znth_app_l; [exact H2|]. apply znth_some_range in H2. lia.
  Qed.
  Lemma path_fun v p w1 w2 : path v p w1 -> path v p w2 -> w1 = w2.
  Proof.
    intros H. revert w2. induction H as [v|ks m k v p w Hv Hp IH]; intros w2 H2; inversion H2 as [|? ? ? v' ? ? Hv' Hp']; subst; [reflexivity|].
    apply IH. rewrite Hv in Hv'. injection Hv' as ->. exact Hp'.
  Qed.
  Lemma ofDict_eta d : ofDict d = Obj (keysOf d) (mapOf d). Proof. reflexivity. Qed.
  Lemma path_down d k v p w : AtK d k = Some v -> (path (ofDict d) (k :: p) w <-> path v p w).
  Proof.
    intros H. destruct d as [ks m]. unfold ofDict. cbn [keysOf mapOf]. split.
    - intros P. inversion P as [|? ? ? v' ? ? Hv Hp]; subst. rewrite H in Hv. injection Hv as <-. exact Hp.
    - intros P. econstructor; eauto.
  Qed.
  Lemma path_none d k p w : AtK d k = None -> ~ path (ofDict d) (k :: p) w.
  Proof. intros H P. destruct d as [ks m]. inversion P as [|? ? ? v' ? ? Hv Hp]; subst. congruence. Qed.
  Lemma index_path p : forall d w, p <> [] -> path (ofDict d) p w -> objDepthIndex keq leaf_index (map KOne p) d = Ok w.
  Proof.
    induction p as [|k p IH]; intros d w N P; [congruence|]. inversion P as [|ks m ? v ? ? Hv Hp E1 E2]; subst.
    assert (Hd : AtK d k = Some v) by (destruct d; exact Hv).
    destruct p as [|k2 p].
    - inversion Hp; subst. cbn [map objDepthIndex objIndex]. rewrite Hd. reflexivity.
    - cbn [map objDepthIndex]. cbn [map] in IH. rewrite Hd. destruct v as [a|ks2 m2]; [inversion Hp|]. cbn [asDict]. apply IH; [discriminate|exact Hp].
  Qed.
  Lemma index_missing p : forall d ks m k rest, path (ofDict d) p (Obj ks m) -> AtK (mkDict ks m) k = None ->
    objDepthIndex keq leaf_index (map KOne (p ++ k :: rest)) d = Err.
  Proof.
    induction p as [|k0 p IH]; intros d ks m k rest P H.
    - inversion P; subst. assert (Hd : AtK d k = None) by (destruct d; assumption). destruct rest as [|k2 rest]; cbn [app map objDepthIndex objIndex]; rewrite Hd; reflexivity.
    - inversion P as [|ks1 m1 ? v ? ? Hv Hp E1 E2]; subst. assert (Hd : AtK d k0 = Some v) by (destruct d; exact Hv).
      assert (exists ks2 m2, v = Obj ks2 m2) as (ks2 & m2 & ->) by (inversion Hp; subst; eauto).
      assert (X : exists k2 r2, p ++ k :: rest = k2 :: r2) by (destruct p; cbn; eauto). destruct X as (k2 & r2 & E).
      specialize (IH (mkDict ks2 m2) ks m k rest Hp H). cbn [app]. rewrite E in *. cbn [map objDepthIndex] in *. rewrite Hd. cbn [asDict]. exact IH.
  Qed.
  Lemma proper_sub d k v : proper_tree keq (ofDict d) -> AtK d k = Some v -> proper_tree keq v.
  Proof. intros P H p ks m Hp. apply (P (k :: p)). apply (path_down d k v); assumption. Qed.
  (* the tree with the value at the path replaced *)
  Lemma assign_path p : forall d w, p <> [] -> path (ofDict d) p w -> proper_tree keq (ofDict d) -> exists ints, objDepthSelection keq p d = Ok ints /\ ints <> [] /\
     (forall i, In i ints -> i < 0) /\
     forall (S : Type) o R (s : S), exists d', assignDepth keq asArray o ints None R d s = ((Ok tt, d'), s) /\ keysOf d' = keysOf d /\
        path (ofDict d') p R /\ (forall q x, keys_apart p q -> (path (ofDict d') q x <-> path (ofDict d) q x)) /\
        (forall q r ks m, p = q ++ r -> r <> [] -> path (ofDict d) q (Obj ks m) -> exists m', path (ofDict d') q (Obj ks m')).
  Proof.
    induction p as [|k p IH]; intros d w N P Pr; [congruence|]. inversion P as [|ks m ? v ? ? Hv Hp E1 E2]; subst.
    assert (Hd : AtK d k = Some v) by (destruct d; exact Hv).
    assert (Pd : proper keq d). { destruct d as [ks0 m0]. apply (Pr [] ks0 m0). constructor. }
    assert (Ik : In k (keysOf d)) by (apply Pd; eauto).
    destruct (lastpos_spec (keysOf d) k Ik) as [L0 L1]. set (i := lastpos keq (keysOf d) k) in *.
    assert (SK : forall x, keysOf (DSet keq d k x) = keysOf d) by (intros x; apply keys_DSet_in; assumption).
    cbn [objDepthSelection]. rewrite Hd. fold i. rewrite (proj2 (Z.ltb_ge i 0) L0).
    assert (Oth : forall x q y, keys_apart (k :: p) q -> (match q with k' :: _ => k' <> k | [] => True end) -> (path (ofDict (DSet keq d k x)) q y <-> path (ofDict d) q y)).
    { intros x q y [A1 A2] Hq. destruct q as [|k' q]; [exfalso; apply (A2 (k :: p)); reflexivity|].
      destruct (AtK d k') as [u|] eqn:Eu.
      - rewrite (path_down d k' u q y Eu). apply path_down. rewrite (At_DSet_other keq Hk) by exact Hq. exact Eu.
      - split; intros HP; exfalso; [|exact (path_none d k' q y Eu HP)]. apply (path_none (DSet keq d k x) k' q y); [|exact HP]. rewrite (At_DSet_other keq Hk) by exact Hq. exact Eu. }
    destruct p as [|k2 p].
    - (* the last key *)
      exists [-1 - i]. split; [reflexivity|]. split; [discriminate|]. split; [intros j [<-|[]]; lia|]. intros S o R s. cbn [assignDepth].
      rewrite (proj2 (Z.ltb_lt _ _)) by lia. unfold assignObject. replace (-1 - (-1 - i) + o) with (i + o) by lia.
      exists (DSet keq d k R). 
      assert (EL : assign_loop keq o (keysOf d) None R None 0 [i + o] d s = ((Ok tt, DSet keq d k R), s)).
      { cbn [assign_loop]. replace (i + o - o) with i by lia. pose proof (znth_some_range _ _ _ L1).
        rewrite (proj2 (Z.ltb_ge _ _)), (proj2 (Z.leb_gt _ _)) by lia. cbn [orb]. rewrite L1. reflexivity. }
      split; [destruct (asArray R) as [[? ?]|]; [change (1 <? zlen [i + o]) with false; cbn iota|]; exact EL|].
      split; [apply SK|]. split; [apply (path_down _ k R); [apply (At_DSet_same keq Hk)|constructor]|]. split.
      + intros q x Hq. apply Oth; [exact Hq|]. destruct q as [|k' q]; [exact I|]. intros ->. destruct Hq as [A1 _]. apply (A1 q). reflexivity.
      + intros q r ks' m' E Hr HP. destruct q as [|k' q].
        * inversion HP as [? E3|]; subst. exists (mapOf (DSet keq d k R)).
          replace (Obj (keysOf d) _) with (ofDict (DSet keq d k R)) by (unfold ofDict; rewrite SK; reflexivity). constructor.
        * exfalso. apply Hr. destruct q; [destruct r; [reflexivity|discriminate]|discriminate].
    - (* further down *)
      destruct v as [a|ks2 m2]; [inversion Hp|]. cbn [asDict]. change (Obj ks2 m2) with (ofDict (mkDict ks2 m2)) in Hp.
      destruct (IH (mkDict ks2 m2) w ltac:(discriminate) Hp) as (ints & E & Ni & Neg & HA); [apply (proper_sub d k); assumption|]. rewrite E. cbn [obind].
      exists (-1 - i :: ints). split; [reflexivity|]. split; [discriminate|]. split; [intros j [<-|Hj]; [lia|apply Neg, Hj]|].
      intros S o R s. destruct (HA S o R s) as (o' & Eo & Ko & Po & Oo & So). destruct ints as [|i2 ints]; [congruence|].
      assert (EA : assignDepth keq asArray o (-1 - i :: i2 :: ints) None R d s = ((Ok tt, DSet keq d k (ofDict o')), s)).
      { cbn [assignDepth]. cbn [assignDepth] in Eo. rewrite (proj2 (Z.leb_gt _ _)) by lia. replace (-1 - (-1 - i)) with i by lia. pose proof (znth_some_range _ _ _ L1).
        rewrite (proj2 (Z.ltb_ge _ _)), (proj2 (Z.leb_gt _ _)) by lia. cbn [orb]. rewrite L1, Hd. cbn [asDict]. rewrite Eo. reflexivity. }
      exists (DSet keq d k (ofDict o')). split; [exact EA|]. split; [apply SK|]. split; [apply (path_down _ k (ofDict o')); [apply (At_DSet_same keq Hk)|exact Po]|]. split.
      + intros q x Hq. destruct q as [|k' q]; [exfalso; destruct Hq as [_ A2]; apply (A2 (k :: k2 :: p)); reflexivity|].
        destruct (keq_dec keq Hk k' k) as [->|Nk]; [|apply Oth; [exact Hq|exact Nk]].
        rewrite (path_down (DSet keq d k (ofDict o')) k (ofDict o')) by (apply (At_DSet_same keq Hk)). rewrite (path_down d k _ q x Hd). apply (Oo q x).
        destruct Hq as [A1 A2]. split; intros r Er; [apply (A1 r)|apply (A2 r)]; rewrite Er; reflexivity.
      + intros q r ks' m' E3 Hr HP. destruct q as [|k' q].
        * inversion HP as [? E4|]; subst. exists (mapOf (DSet keq d k (ofDict o'))).
          replace (Obj (keysOf d) _) with (ofDict (DSet keq d k (ofDict o'))) by (unfold ofDict; rewrite SK; reflexivity). constructor.
        * injection E3 as <- E3. rewrite (path_down d k _ _ _ Hd) in HP. destruct (So q r ks' m' E3 Hr HP) as [m3 H3]. exists m3.
          apply (path_down _ k (ofDict o')); [apply (At_DSet_same keq Hk)|exact H3].
  Qed.
  Lemma select_missing p : forall d ks m k rest, path (ofDict d) p (Obj ks m) -> AtK (mkDict ks m) k = None -> proper_tree keq (ofDict d) ->
    objDepthSelection keq (p ++ k :: rest) d = Err.
  Proof.
    induction p as [|k0 p IH]; intros d ks m k rest P H Pr.
    - inversion P; subst. assert (Hd : AtK d k = None) by (destruct d; assumption). cbn [app objDepthSelection]. rewrite Hd. reflexivity.
    - inversion P as [|ks1 m1 ? v ? ? Hv Hp E1 E2]; subst. assert (Hd : AtK d k0 = Some v) by (destruct d; exact Hv).
      assert (exists ks2 m2, v = Obj ks2 m2) as (ks2 & m2 & ->) by (inversion Hp; subst; eauto).
      specialize (IH (mkDict ks2 m2) ks m k rest Hp H (proper_sub d k0 _ Pr Hd)).
      cbn [app objDepthSelection]. rewrite Hd. destruct (lastpos keq (keysOf d) k0 <? 0); [reflexivity|].
      assert (X : exists k2 r2, p ++ k :: rest = k2 :: r2) by (destruct p; cbn; eauto). destruct X as (k2 & r2 & E). rewrite E in *. cbn [asDict]. rewrite IH. reflexivity.
  Qed.
End Dp.

Section Tb.
  Context {K V : Type} (keq : K -> K -> bool) (Hk : key_equality keq).
  Notation prop := (@proper K V keq).
  Notation AtK := (@At K V keq).
  Implicit Types d e l r : dict K V.
  Definition kmap (g : K -> V) (ks : list K) : list (K * V) := map (fun k => (k, g k)) ks.
  Lemma kmap_fst g ks : map fst (kmap g ks) = ks.
  Proof. unfold kmap. rewrite map_map. apply map_id. Qed.
  Lemma ofpairs_kmap g ks : NoDup ks -> prop (ofpairs keq (kmap g ks)) /\ keysOf (ofpairs keq (kmap g ks)) = ks /\
    (forall k, In k ks -> AtK (ofpairs keq (kmap g ks)) k = Some (g k)) /\ (forall k, ~ In k ks -> AtK (ofpairs keq (kmap g ks)) k = None).
  Proof.
    intros N. assert (N' : NoDup (map fst (kmap g ks))) by (rewrite kmap_fst; exact N).
    pose proof (ofpairs_proper keq Hk _ N') as P. split; [exact P|].
    split; [apply kmap_fst|]. split; [intros k I; apply ofpairs_At; [exact Hk|exact N'|]; unfold kmap; apply in_map_iff; exists k; split; [reflexivity|exact I]|].
    intros k I. destruct (AtK (ofpairs keq (kmap g ks)) k) as [v|] eqn:E; [|reflexivity]. exfalso. apply I. rewrite <- (kmap_fst g ks). apply P. eauto.
  Qed.
  Definition has d k := match AtK d k with Some _ => true | None => false end.
  Lemma has_in d k : prop d -> (has d k = true <-> In k (keysOf d)).
  Proof. intros [_ P]. rewrite P. unfold has. destruct (AtK d k) as [v|]; split; try discriminate; eauto. intros [v H]. discriminate. Qed.
  (* the keys of l, then those of r that are new *)
  Definition union_keys l r := keysOf l ++ filter (fun k => negb (has l k)) (keysOf r).
  Lemma NoDup_union l r : prop l -> prop r -> NoDup (union_keys l r).
  Proof.
    intros Pl Pr. unfold union_keys. pose proof (proj1 Pr) as Nr. pose proof (proj1 Pl) as Nl.
    induction (keysOf l) as [|k ks IH] eqn:El in Nl |- *.
    - cbn. apply NoDup_filter, Nr.
    - (* by disjointness *)
      clear IH. assert (D : forall x, In x (k :: ks) -> ~ In x (filter (fun k0 => negb (has l k0)) (keysOf r))).
      { intros x Hx Hf. apply filter_In in Hf as [_ Hf]. rewrite <- El in Hx. apply (has_in l x Pl) in Hx. rewrite Hx in Hf. discriminate. }
      revert Nl D. generalize (k :: ks) as a. intros a Na. induction Na as [|x a Hx Na IHa]; intros D; cbn; [apply NoDup_filter, Nr|]. constructor.
      + rewrite in_app_iff. intros [?|?]; [auto|]. apply (D x); [left; reflexivity|assumption].
      + apply IHa. intros y Hy. apply D. right. exact Hy.
  Qed.
  Lemma In_union l r k : prop l -> prop r -> (In k (union_keys l r) <-> In k (keysOf l) \/ In k (keysOf r)).
  Proof.
    intros Pl Pr. unfold union_keys. rewrite in_app_iff, filter_In. split; [tauto|]. intros [?|H]; [tauto|].
    destruct (has l k) eqn:E; [left; apply (has_in l k Pl), E|right; split; [exact H|reflexivity]].
  Qed.
  Lemma flat_map_kmap (g : K -> V) (p : K -> bool) ks : 
    flat_map (fun o : option (K * V) => match o with Some kv => [kv] | None => [] end) (map (fun k => if p k then None else Some (k, g k)) ks) = kmap g (filter (fun k => negb (p k)) ks).
  Proof. induction ks as [|k ks IH]; [reflexivity|]. cbn. destruct (p k); cbn; rewrite IH; reflexivity. Qed.
  Lemma mapM_keys {X} (h : K -> outcome X) (g : K -> X) ks : (forall k, In k ks -> h k = Ok (g k)) -> mapM h ks = Ok (map g ks).
  Proof. intros H. induction ks as [|k ks IH]; [reflexivity|]. cbn. rewrite H by (left; reflexivity). cbn. rewrite IH; [reflexivity|]. intros x Hx. apply H. right. exact Hx. Qed.
  Lemma fold_first (g : K -> V) ks d : prop d -> NoDup ks ->
    let e := fold_left (cat_first_step keq) (kmap g ks) d in
    prop e /\ keysOf e = keysOf d ++ filter (fun k => negb (has d k)) ks /\
    forall k, AtK e k = if in_dec (keq_dec keq Hk) k ks then Some (g k) else AtK d k.
  Proof.
    revert d. induction ks as [|k ks IH]; intros d P N; cbv zeta; [split; [exact P|]; cbn; rewrite app_nil_r; split; reflexivity|].
    inversion N as [|? ? N1 N2]; subst. cbn [kmap map fold_left]. fold (kmap g ks).
    change (cat_first_step keq d (k, g k)) with (DSet keq d k (g k)).
    destruct (IH (DSet keq d k (g k))) as (I1 & I2 & I3); [apply proper_DSet; assumption|exact N2|]. cbv zeta in *. split; [exact I1|]. split.
    - rewrite I2. cbn [filter].
      assert (EF : filter (fun k0 => negb (has (DSet keq d k (g k)) k0)) ks = filter (fun k0 => negb (has d k0)) ks).
      { apply filter_ext_in. intros x Hx. unfold has. rewrite (At_DSet_other keq Hk); [reflexivity|]. intros ->. contradiction. }
      rewrite EF. destruct (has d k) eqn:E; cbn [negb].
      + rewrite (keys_DSet_in keq); [reflexivity|exact P|apply has_in; assumption].
      + rewrite (keys_DSet_new keq); [rewrite <- app_assoc; reflexivity|exact P|]. intros I. apply has_in in I; [congruence|exact P].
    - intros k'. rewrite I3, (At_DSet keq Hk).
      repeat match goal with |- context [in_dec ?D ?a ?l] => destruct (in_dec D a l) as [?I|?I] end.
      + reflexivity.
      + exfalso. apply I0. right. assumption.
      + destruct I0 as [->|?]; [|contradiction]. rewrite (keq_refl keq Hk). reflexivity.
      + rewrite (keq_neq keq Hk); [reflexivity|]. intros ->. apply I0. left. reflexivity.
  Qed.
  Lemma fold_last (g : K -> V) ks d : prop d -> NoDup ks ->
    let e := fold_left (cat_last_step keq) (kmap g ks) d in
    prop e /\ keysOf e = keysOf d ++ filter (fun k => negb (has d k)) ks /\
    forall k, AtK e k = match AtK d k with Some v => Some v | None => if in_dec (keq_dec keq Hk) k ks then Some (g k) else None end.
  Proof.
    revert d. induction ks as [|k ks IH]; intros d P N; cbv zeta.
    { split; [exact P|]. cbn. rewrite app_nil_r. split; [reflexivity|]. intros k. destruct (AtK d k); reflexivity. }
    inversion N as [|? ? N1 N2]; subst. cbn [kmap map fold_left]. fold (kmap g ks).
    set (d1 := cat_last_step keq d (k, g k)).
    assert (E1 : d1 = if has d k then d else DSet keq d k (g k)).
    { unfold d1, cat_last_step, has, At, DSet. cbn [fst snd]. destruct (mget keq (mapOf d) k); reflexivity. }
    assert (P1 : prop d1) by (rewrite E1; destruct (has d k); [exact P|apply proper_DSet; assumption]).
    destruct (IH d1 P1 N2) as (I1 & I2 & I3). cbv zeta in *. split; [exact I1|].
    assert (Oth : forall x, x <> k -> AtK d1 x = AtK d x).
    { intros x Hx. rewrite E1. destruct (has d k); [reflexivity|]. apply (At_DSet_other keq Hk). exact Hx. }
    split.
    - rewrite I2. cbn [filter].
      assert (EF : filter (fun k0 => negb (has d1 k0)) ks = filter (fun k0 => negb (has d k0)) ks).
      { apply filter_ext_in. intros x Hx. unfold has. rewrite Oth; [reflexivity|]. intros ->. contradiction. }
      rewrite EF, E1. destruct (has d k) eqn:E; cbn [negb]; [reflexivity|].
      rewrite (keys_DSet_new keq); [rewrite <- app_assoc; reflexivity|exact P|]. intros I. apply has_in in I; [congruence|exact P].
    - intros k'. rewrite I3. destruct (keq_dec keq Hk k' k) as [->|Nk].
      + assert (EK : AtK d1 k = Some (match AtK d k with Some v => v | None => g k end)).
        { rewrite E1. unfold has. destruct (AtK d k) eqn:E; [exact E|]. apply (At_DSet_same keq Hk). }
        rewrite EK. destruct (AtK d k); [reflexivity|]. destruct (in_dec (keq_dec keq Hk) k (k :: ks)) as [_|F]; [reflexivity|]. exfalso. apply F. left. reflexivity.
      + rewrite Oth by exact Nk. destruct (AtK d k'); [reflexivity|].
        destruct (in_dec (keq_dec keq Hk) k' ks) as [I|I], (in_dec (keq_dec keq Hk) k' (k :: ks)) as [J|J]; try reflexivity; exfalso.
        * apply J. right. exact I.
        * destruct J as [J|J]; [congruence|contradiction].
  Qed.
End Tb.

Section Tc.
  Context {K V : Type} (keq : K -> K -> bool) (Hk : key_equality keq).
  Notation prop := (@proper K V keq).
  Notation AtK := (@At K V keq).
  Implicit Types d e l r : dict K V.
  Lemma mapM_pairs (h : K -> outcome V) ks : (forall k, In k ks -> exists w, h k = Ok w) ->
    exists kvs, mapM (fun k => let* w := h k in Ok (k, w)) ks = Ok kvs /\ map fst kvs = ks /\ forall k w, In (k, w) kvs <-> In k ks /\ h k = Ok w.
  Proof.
    induction ks as [|k ks IH]; intros H; [exists []; split; [reflexivity|split; [reflexivity|]]; cbn; tauto|].
    destruct (H k) as [w E]; [left; reflexivity|]. destruct IH as (kvs & E1 & E2 & E3); [intros; apply H; right; assumption|].
    exists ((k, w) :: kvs). cbn. rewrite E. cbn. rewrite E1. cbn. split; [reflexivity|]. split; [congruence|]. intros k' w'. rewrite E3. split.
    - intros [[= <- <-]|?]; tauto.
    - intros [[<-|?] ?]; [left; congruence|right; tauto].
  Qed.
  Lemma mapM_pairs_inv (h : K -> outcome V) ks kvs : mapM (fun k => let* w := h k in Ok (k, w)) ks = Ok kvs -> forall k, In k ks -> exists w, h k = Ok w.
  Proof.
    revert kvs. induction ks as [|k ks IH]; intros kvs H k' Hk'; [destruct Hk'|]. cbn in H. destruct (h k) as [w| |] eqn:E; try discriminate. cbn in H.
    destruct (mapM _ ks) as [kvs'| |] eqn:E'; try discriminate. destruct Hk' as [<-|Hk']; [eauto|]. eapply IH; eauto.
  Qed.
  Lemma mapM_opts (p : K -> bool) (h : K -> outcome V) ks : (forall k, In k ks -> p k = false -> exists w, h k = Ok w) ->
    exists os, mapM (fun k => if p k then Ok None else let* w := h k in Ok (Some (k, w))) ks = Ok os /\
      let kvs := flat_map (fun o : option (K * V) => match o with Some kv => [kv] | None => [] end) os in
      map fst kvs = filter (fun k => negb (p k)) ks /\ forall k w, In (k, w) kvs <-> In k ks /\ p k = false /\ h k = Ok w.
  Proof.
    induction ks as [|k ks IH]; intros H; [exists []; split; [reflexivity|split; [reflexivity|]]; cbn; tauto|].
    destruct IH as (os & E1 & E2 & E3); [intros; apply H; [right|]; assumption|]. cbv zeta in *.
    destruct (p k) eqn:E.
    - exists (None :: os). cbn. rewrite E. cbn. rewrite E1. cbn. split; [reflexivity|]. split; [exact E2|]. intros k' w'. rewrite E3. split.
      + intros (I1 & I2). tauto.
      + intros ([<-|?] & ?); [destruct H0; congruence|tauto].
    - destruct (H k) as [w Ew]; [left; reflexivity|exact E|]. exists (Some (k, w) :: os). cbn. rewrite E, Ew. cbn. rewrite E1. cbn. split; [reflexivity|]. split; [congruence|].
      intros k' w'. rewrite E3. split.
      + intros [[= <- <-]|?]; tauto.
      + intros ([<-|?] & ? & ?); [left; congruence|right; tauto].
  Qed.
  Lemma kvs_kmap (kvs : list (K * V)) : NoDup (map fst kvs) -> kvs = [] \/ exists g, kvs = kmap g (map fst kvs).
  Proof.
    intros N. destruct kvs as [|[k0 v0] kvs']; [left; reflexivity|right]. set (kvs := (k0, v0) :: kvs') in *. clearbody kvs.
    exists (fun k => match mget keq kvs k with Some v => v | None => v0 end). unfold kmap. rewrite map_map. rewrite <- (map_id kvs) at 1.
    apply map_ext_in. intros [k v] I. cbn. rewrite (In_mget keq Hk _ _ _ N I). reflexivity.
  Qed.
  Lemma first_order_app (a b : list K) p : NoDup a -> NoDup b -> (forall k, p k = true <-> In k a) -> first_order (a ++ b) (a ++ filter (fun k => negb (p k)) b).
  Proof.
    intros Na Nb Hp. induction b as [|x b IH] using rev_ind; [cbn; rewrite !app_nil_r; apply first_order_NoDup_self, Na|].
    assert (Nb' : NoDup b /\ ~ In x b). { apply NoDup_remove in Nb. rewrite app_nil_r in Nb. exact Nb. }
    destruct Nb' as [Nb1 Nb2]. specialize (IH Nb1). rewrite filter_app. cbn. rewrite app_assoc. destruct (p x) eqn:E; cbn.
    - rewrite app_nil_r. apply fo_old; [exact IH|]. apply in_app_iff. left. apply Hp, E.
    - rewrite app_assoc. apply fo_new; [exact IH|]. rewrite in_app_iff. intros [I|I]; [|contradiction]. apply Hp in I. congruence.
  Qed.
  Lemma fold_first' (kvs : list (K * V)) d : prop d -> NoDup (map fst kvs) ->
    let e := fold_left (cat_first_step keq) kvs d in
    prop e /\ first_order (keysOf d ++ map fst kvs) (keysOf e) /\
    forall k, AtK e k = match mget keq kvs k with Some v => Some v | None => AtK d k end.
  Proof.
    intros P N. cbv zeta. destruct (kvs_kmap kvs N) as [->|[g E]].
    { cbn. split; [exact P|]. rewrite app_nil_r. split; [apply first_order_NoDup_self, P|]. reflexivity. }
    pose proof (fold_first keq Hk g (map fst kvs) d P N) as F. cbv zeta in F. rewrite <- E in F. destruct F as (F1 & F2 & F3). split; [exact F1|]. split.
    - rewrite F2. apply first_order_app; [apply P|exact N|]. intros k. apply has_in, P.
    - intros k. rewrite F3. destruct (in_dec _ k (map fst kvs)) as [I|I].
      + assert (I' : In (k, g k) kvs) by (rewrite E; unfold kmap; apply in_map_iff; exists k; split; [reflexivity|exact I]).
        rewrite (In_mget keq Hk _ _ _ N I'). reflexivity.
      + apply (mget_None keq Hk) in I. rewrite I. reflexivity.
  Qed.
  Lemma fold_last' (kvs : list (K * V)) d : prop d -> NoDup (map fst kvs) ->
    let e := fold_left (cat_last_step keq) kvs d in
    prop e /\ first_order (keysOf d ++ map fst kvs) (keysOf e) /\
    forall k, AtK e k = match AtK d k with Some v => Some v | None => mget keq kvs k end.
  Proof.
    intros P N. cbv zeta. destruct (kvs_kmap kvs N) as [->|[g E]].
    { cbn. split; [exact P|]. rewrite app_nil_r. split; [apply first_order_NoDup_self, P|]. intros k. destruct (AtK d k); reflexivity. }
    pose proof (fold_last keq Hk g (map fst kvs) d P N) as F. cbv zeta in F. rewrite <- E in F. destruct F as (F1 & F2 & F3). split; [exact F1|]. split.
    - rewrite F2. apply first_order_app; [apply P|exact N|]. intros k. apply has_in, P.
    - intros k. rewrite F3. destruct (AtK d k); [reflexivity|]. destruct (in_dec _ k (map fst kvs)) as [I|I].
      + assert (I' : In (k, g k) kvs) by (rewrite E; unfold kmap; apply in_map_iff; exists k; split; [reflexivity|exact I]).
        rewrite (In_mget keq Hk _ _ _ N I'). reflexivity.
      + apply (mget_None keq Hk) in I. rewrite I. reflexivity.
  Qed.
  Lemma mapM_atM d : prop d -> exists kvs, mapM (atM keq d) (keysOf d) = Ok kvs /\ map fst kvs = keysOf d /\ forall k, mget keq kvs k = AtK d k.
  Proof.
    intros P. set (h := fun k => match AtK d k with Some v => Ok v | None => Panic end).
    destruct (mapM_pairs h (keysOf d)) as (kvs & E1 & E2 & E3). { intros k I. apply P in I as [v Ev]. exists v. unfold h. rewrite Ev. reflexivity. }
    exists kvs. split; [|split; [exact E2|]].
    - rewrite <- E1. apply mapM_ext. intros k _. unfold atM, h. destruct (AtK d k); reflexivity.
    - intros k. destruct (AtK d k) as [v|] eqn:E.
      + apply In_mget; [exact Hk|rewrite E2; apply P|]. apply E3. split; [apply P; eauto|]. unfold h. rewrite E. reflexivity.
      + apply mget_None; [exact Hk|]. rewrite E2. intros I. apply P in I as [v Ev]. congruence.
  Qed.
  Lemma ofpairs_get kvs k : NoDup (map fst kvs) -> AtK (ofpairs keq kvs) k = mget keq kvs k.
  Proof.
    intros N. destruct (mget keq kvs k) as [v|] eqn:E.
    - apply ofpairs_At; [exact Hk|exact N|]. apply (mget_Some_In keq Hk _ _ _ E).
    - destruct (AtK (ofpairs keq kvs) k) as [v|] eqn:E'; [|reflexivity]. apply (ofpairs_At keq Hk _ _ _ N) in E'. rewrite (In_mget keq Hk _ _ _ N E') in E. discriminate.
  Qed.
End Tc.
