(* Prop_Dict.v -- C55, C82, C83, C84, C85: dictionaries.
   Vocabulary: S_Dict.v.  key_equality: keys are compared by value. *)
From Verif Require Import Base Eff P_Array M_Dict S_Dict P_Dict.
From Coq Require String.
Import String.StringSyntax.
Delimit Scope string_scope with string.
Bind Scope string_scope with String.string.
Open Scope Z_scope.
Open Scope list_scope.

Section C55.
  Context {K V S : Type} (keq : K -> K -> bool) (Hk : key_equality keq) (asArray : V -> option (list Z * list V)) (empty : V).
  Local Notation assign := (dict_assign (S := S) keq asArray empty).

  (* one assignment D[k]←v *)
  Theorem C55_assign o k v (d : dict K V) (s : S) : proper keq d ->
    exists d', assign o (KOne k) None v d s = ((Ok tt, d'), s) /\ proper keq d' /\
      At keq d' k = Some v /\ (forall k', k' <> k -> At keq d' k' = At keq d k') /\
      keysOf d' = (if in_dec (keq_dec keq Hk) k (keysOf d) then keysOf d else keysOf d ++ [k]).
  Proof.
    intros P. destruct (dict_assign_spec keq Hk empty asArray o (KOne k) v [(k, v)] d s P (as_one _ _ _)) as (d' & E & [S1 S2] & P').
    exists d'. split; [exact E|]. split; [exact P'|]. unfold sets in *. cbn [fold_left fst snd] in *.
    split; [rewrite S2; apply At_DSet_same, Hk|]. split; [intros k' N; rewrite S2; apply At_DSet_other; assumption|]. rewrite S1.
    destruct (in_dec (keq_dec keq Hk) k (keysOf d)); [apply keys_DSet_in; assumption|apply keys_DSet_new; assumption].
  Qed.

  (* a sequence of assignments D[spec1]←R1, D[spec2]←R2, ..: all succeed *)
  Fixpoint assign_seq (o : Z) (ops : list (@keyarg K * V)) (d : dict K V) (s : S) : (outcome unit * dict K V) * S :=
    match ops with
    | [] => ((Ok tt, d), s)
    | (spec, R) :: ops' => match assign o spec None R d s with
                           | ((Ok tt, d'), s') => assign_seq o ops' d' s'
                           | r => r
                           end
    end.
  (* after any sequence of assignments, starting with the entries h0 of d, the keys are
     listed once, in the order in which they were first assigned, and every key has the
     value that was assigned last *)
  Theorem C55_history o ops kvss (d : dict K V) h0 (s : S) : proper keq d ->
    map fst h0 = keysOf d -> (forall k v, In (k, v) h0 <-> At keq d k = Some v) ->
    Forall2 (fun op kvs => assigns asArray (fst op) (snd op) kvs) ops kvss ->
    exists d', assign_seq o ops d s = ((Ok tt, d'), s) /\ proper keq d' /\
      first_order (map fst (h0 ++ concat kvss)) (keysOf d') /\
      (forall k v, At keq d' k = Some v <-> last_given (h0 ++ concat kvss) k v).
  Proof.
    intros P E0 H0 F.
    assert (H : hist keq d h0).
    { destruct (hist_initial keq d P) as (h & E & H & HI).
      assert (NoDup (map fst h0)) by (rewrite E0; apply P). split; [rewrite E0; apply first_order_NoDup_self, P|].
      intros k v. rewrite <- H0. split.
      - intros I. apply in_split in I as (h1 & h2 & ->). exists h1, h2. split; [reflexivity|]. rewrite map_app in *. cbn [map fst] in *.
        apply NoDup_remove_2 in H1. intros ?. apply H1, in_app_iff. right. assumption.
      - intros (h1 & h2 & -> & _). apply in_app_iff. right. left. reflexivity. }
    clear E0 H0. revert d h0 P H. induction F as [|[spec R] kvs ops kvss HA F IH]; intros d h0 P H.
    - exists d. cbn. rewrite app_nil_r. split; [reflexivity|]. split; [exact P|]. exact H.
    - cbn [assign_seq concat fst snd] in *. destruct (dict_assign_spec keq Hk empty asArray o spec R kvs d s P HA) as (d1 & E & SM & P1). rewrite E.
      rewrite app_assoc. apply IH; [exact P1|]. apply (hist_same keq (sets keq d kvs)); [apply same_sym, SM|]. apply hist_sets; assumption.
  Qed.
  (* modified assignment D[k]f←v of an existing key: f is called once, with the old
     value on the left; if it fails, the dictionary is as before *)
  Theorem C55_modified o k w v f (d : dict K V) (s : S) : proper keq d -> At keq d k = Some w ->
    assign o (KOne k) (Some f) v d s =
    match f (Some w) v s with
    | (Ok x, s') => ((Ok tt, DSet keq d k x), s')
    | (Err, s') => ((Err, d), s')
    | (Panic, s') => ((Panic, d), s')
    end.
  Proof.
    intros P HA. unfold dict_assign. destruct (objSelection_spec keq Hk empty o (KOne k) d P) as (ints & E & F). rewrite E. cbn [argkeys] in *.
    assert (ET : touch keq empty d [k] = d) by (rewrite touch_cons, HA; reflexivity). rewrite ET in *.
    inversion F as [|? i ? l Hi F']; subst. inversion F'; subst. clear F F'. pose proof (znth_some_range _ _ _ Hi) as R.
    assert (EL : assign_loop keq o (keysOf d) (Some f) v None 0 [i] d s =
      match f (Some w) v s with (Ok x, s') => ((Ok tt, DSet keq d k x), s') | (Err, s') => ((Err, d), s') | (Panic, s') => ((Panic, d), s') end).
    { cbn [assign_loop]. rewrite (proj2 (Z.ltb_ge _ _)), (proj2 (Z.leb_gt _ _)) by lia. cbn [orb]. rewrite Hi, HA.
      destruct (f (Some w) v s) as [[x| |] s']; reflexivity. }
    unfold assignObject. destruct (asArray v) as [[? ?]|]; [change (1 <? zlen [i]) with false; cbn iota|]; exact EL.
  Qed.
  (* a value list of the wrong length is an error *)
  Theorem C55_nonconforming o sh ks R rs vs (d : dict K V) (s : S) : proper keq d -> asArray R = Some (rs, vs) -> zlen ks > 1 -> zlen ks <> zlen vs ->
    exists d', assign o (KArr sh ks) None R d s = ((Err, d'), s) /\ forall k v, At keq d k = Some v -> At keq d' k = Some v.
  Proof.
    intros P HR L N. unfold dict_assign. destruct (objSelection_spec keq Hk empty o (KArr sh ks) d P) as (ints & E & F). rewrite E. cbn [argkeys] in *.
    exists (touch keq empty d ks). unfold assignObject. rewrite HR. rewrite <- (Forall2_zlen _ _ _ F). rewrite (proj2 (Z.ltb_lt _ _)) by lia. rewrite (proj2 (Z.eqb_neq _ _) N).
    split; [reflexivity|]. intros k v. apply At_touch_in, Hk.
  Qed.
End C55.
(* finding: the failing assignment has created the missing keys *)
Example C55_failed_assignment_creates_keys :
  dict_assign (S := unit) String.eqb (fun v => Some ([3], v :: v :: [v])) 0 1 (KArr [2] ["b"; "c"]%string) None 7 (mkDict ["a"%string] [("a"%string, 1)]) tt
  = ((Err, mkDict ["a"; "b"; "c"]%string [("a", 1); ("b", 0); ("c", 0)]%string), tt).
Proof. reflexivity. Qed.
Example C55_example : proper String.eqb (mkDict ["a"%string] [("a"%string, 1)]) /\ key_equality String.eqb /\
  exists d', assign_seq (S := unit) String.eqb (fun _ => None) 0 1 [(KOne "b"%string, 2); (KArr [2] ["c"; "a"]%string, 3)] (mkDict ["a"%string] [("a"%string, 1)]) tt = ((Ok tt, d'), tt)
    /\ keysOf d' = ["a"; "b"; "c"]%string /\ At String.eqb d' "a"%string = Some 3.
Proof.
  split; [|split; [exact String.eqb_eq|eexists; repeat split; reflexivity]].
  split; [repeat constructor; intros []|]. intros k. unfold At. cbn [keysOf mapOf mget In]. split.
  - intros [<-|[]]. exists 1. reflexivity.
  - intros [v H]. destruct (String.eqb "a" k) eqn:E; [|discriminate]. left. apply String.eqb_eq, E.
Qed.
Print Assumptions C55_history.
Print Assumptions C55_modified.

(* ------------------------------------------------------------------ C82 *)
Section C82.
  Context {K V : Type} (keq : K -> K -> bool) (Hk : key_equality keq) (asArray : V -> option (list Z * list V)).
  Theorem C82_single k R : exists d, mkdict keq asArray (KOne k) R = Ok d /\ proper keq d /\ keysOf d = [k] /\ At keq d k = Some R.
  Proof.
    exists (mkDict [k] [(k, R)]). split; [reflexivity|].
    assert (E : mkDict [k] [(k, R)] = ofpairs keq [(k, R)]) by reflexivity.
    assert (N : NoDup (map fst [(k, R)])) by (repeat constructor; intros []).
    split; [rewrite E; apply ofpairs_proper; assumption|]. split; [reflexivity|]. unfold At. cbn. rewrite (keq_refl keq Hk). reflexivity.
  Qed.
  (* a vector of distinct keys with a vector of as many values, or with one value for all *)
  Theorem C82_vector ks R vs : NoDup ks -> (asArray R = Some ([zlen ks], vs) /\ zlen vs = zlen ks \/ asArray R = None /\ vs = repeat R (length ks)) ->
    exists d, mkdict keq asArray (KArr [zlen ks] ks) R = Ok d /\ proper keq d /\ keysOf d = ks /\
      forall i k, znth ks i = Some k -> At keq d k = znth vs i.
  Proof.
    intros N H. exists (ofpairs keq (combine ks vs)).
    assert (Lv : zlen vs = zlen ks) by (destruct H as [[_ ?]|[_ ->]]; [assumption|apply zlen_repeat]).
    assert (EF : map fst (combine ks vs) = ks) by (apply map_fst_combine; symmetry; exact Lv).
    assert (Nf : NoDup (map fst (combine ks vs))) by (rewrite EF; exact N).
    split.
    - unfold mkdict. change (negb (zlen [zlen ks] =? 1)) with false. cbv iota. change (zat [zlen ks] 0) with (Ok (zlen ks)). cbn [obind].
      pose proof (zlen_nonneg ks). rewrite (proj2 (Z.ltb_ge _ _)) by lia.
      assert (EA : (match asArray R with Some a => a | None => ([zlen ks], repeat R (Z.to_nat (zlen ks))) end) = ([zlen ks], vs)).
      { destruct H as [[-> _]|[-> ->]]; [reflexivity|]. unfold zlen at 2. rewrite Nat2Z.id. reflexivity. }
      rewrite EA. change (negb (zlen [zlen ks] =? 1)) with false. cbv iota. change (zat [zlen ks] 0) with (Ok (zlen ks)). cbn [obind]. rewrite Z.eqb_refl. cbn [negb].
      assert (EM : mapM (fun i => let* l := zat ks i in let* v := zat vs i in Ok (l, v)) (zseq (zlen ks)) = Ok (combine ks vs)).
      { assert (G : forall pk pv sk sv, pk ++ sk = ks -> pv ++ sv = vs -> zlen pk = zlen pv -> zlen sk = zlen sv ->
          mapM (fun i => let* l := zat ks i in let* v := zat vs i in Ok (l, v)) (map (fun i => zlen pk + i) (zseq (zlen sk))) = Ok (combine sk sv)).
        { intros pk pv sk. revert pk pv. induction sk as [|k sk IH]; intros pk pv sv E1 E2 L1 L2; [reflexivity|].
          destruct sv as [|v sv]; [rewrite zlen_cons in L2; change (zlen []) with 0 in L2; pose proof (zlen_nonneg sk); lia|]. rewrite !zlen_cons in L2.
          rewrite zlen_cons. pose proof (zlen_nonneg sk). rewrite zseq_cons by lia. replace (1 + zlen sk - 1) with (zlen sk) by lia. cbn [map mapM combine].
          rewrite Z.add_0_r.
          assert (Hx : zat ks (zlen pk) = Ok k) by (apply zat_ok; rewrite <- E1, znth_app_r, Z.sub_diag by lia; apply znth_cons_0).
          assert (Hy : zat vs (zlen pk) = Ok v) by (apply zat_ok; rewrite <- E2, L1, znth_app_r, Z.sub_diag by lia; apply znth_cons_0).
          rewrite Hx, Hy. cbn [obind]. specialize (IH (pk ++ [k]) (pv ++ [v]) sv). rewrite !zlen_app, <- !app_assoc in IH.
          change (zlen [k]) with 1 in IH. change (zlen [v]) with 1 in IH. rewrite map_map. rewrite (map_ext _ (fun i => zlen pk + 1 + i)) by (intros; lia).
          rewrite IH; [reflexivity|exact E1|exact E2|lia|lia]. }
        specialize (G [] [] ks vs eq_refl eq_refl eq_refl (eq_sym Lv)). change (zlen []) with 0 in G. rewrite map_ext_in with (g := fun i => i) in G by (intros; lia). rewrite map_id in G. exact G. }
      rewrite EM. reflexivity.
    - split; [apply ofpairs_proper; assumption|]. split; [exact EF|]. intros i k Hi.
      destruct (znth_in_range vs i) as [v Hv]; [rewrite Lv; apply (znth_some_range _ _ _ Hi)|]. rewrite Hv. apply ofpairs_At; [exact Hk|exact Nf|].
      clear - Hi Hv. revert vs i Hi Hv. induction ks as [|k0 ks IH]; intros [|v0 vs] i Hi Hv; try (apply znth_some_range in Hi; change (zlen []) with 0 in Hi; lia); try (apply znth_some_range in Hv; change (zlen []) with 0 in Hv; lia).
      pose proof (znth_some_range _ _ _ Hi). cbn [combine]. destruct (Z.eq_dec i 0) as [->|Ni].
      + rewrite znth_cons_0 in Hi. rewrite znth_cons_0 in Hv. left. congruence.
      + rewrite (znth_cons_pos k0 ks i) in Hi by lia. rewrite (znth_cons_pos v0 vs i) in Hv by lia. right. apply (IH vs (i - 1)); assumption.
  Qed.
  Theorem C82_nonconforming sh ks R : (zlen sh <> 1 \/ exists n, sh = [n] /\ 0 <= n /\ exists rs vs, asArray R = Some (rs, vs) /\ rs <> [n]) ->
    mkdict keq asArray (KArr sh ks) R = Err.
  Proof.
    intros H. unfold mkdict. destruct (zlen sh =? 1) eqn:E; cbn [negb]; [|reflexivity]. apply Z.eqb_eq in E.
    destruct H as [H|(n & -> & Hn & rs & vs & HA & Hne)]; [congruence|]. change (zat [n] 0) with (Ok n). cbn [obind]. rewrite (proj2 (Z.ltb_ge _ _)) by lia. rewrite HA.
    destruct (zlen rs =? 1) eqn:Er; cbn [negb]; [|reflexivity]. apply Z.eqb_eq in Er. destruct rs as [|m [|? ?]].
    - discriminate.
    - change (zat [m] 0) with (Ok m). cbn [obind]. destruct (m =? n) eqn:Em; [|reflexivity]. apply Z.eqb_eq in Em. congruence.
    - rewrite !zlen_cons in Er. pose proof (zlen_nonneg l). lia.
  Qed.
  (* indexing with a vector of existing keys gives the dictionary of these keys *)
  Theorem C82_subset (d : dict K V) ks : NoDup ks -> (forall k, In k ks -> exists v, At keq d k = Some v) ->
    exists e, objIndex keq d (KArr [zlen ks] ks) = Ok (inr e) /\ proper keq e /\ keysOf e = ks /\ forall k, In k ks -> At keq e k = At keq d k.
  Proof.
    intros N H.
    assert (G : exists kvs, map fst kvs = ks /\ (forall k v, In (k, v) kvs -> At keq d k = Some v) /\
      mapM (fun i => let* k := zat ks i in match At keq d k with Some v => Ok (k, v) | None => Err end) (zseq (zlen ks)) = Ok kvs).
    { assert (G : forall pk sk, pk ++ sk = ks -> exists kvs, map fst kvs = sk /\ (forall k v, In (k, v) kvs -> At keq d k = Some v) /\
        mapM (fun i => let* k := zat ks i in match At keq d k with Some v => Ok (k, v) | None => Err end) (map (fun i => zlen pk + i) (zseq (zlen sk))) = Ok kvs).
      { intros pk sk. revert pk. induction sk as [|k sk IH]; intros pk E1; [exists []; split; [reflexivity|]; split; [intros ? ? []|reflexivity]|].
        destruct (IH (pk ++ [k])) as (kvs & I1 & I2 & I3); [rewrite <- app_assoc; exact E1|].
        destruct (H k) as [v Hv]; [rewrite <- E1; apply in_app_iff; right; left; reflexivity|].
        exists ((k, v) :: kvs). split; [cbn; rewrite I1; reflexivity|]. split; [intros k' v' [[= <- <-]|?]; [exact Hv|apply I2; assumption]|].
        rewrite zlen_cons. pose proof (zlen_nonneg sk). rewrite zseq_cons by lia. replace (1 + zlen sk - 1) with (zlen sk) by lia. cbn [map mapM]. rewrite Z.add_0_r.
        assert (Hx : zat ks (zlen pk) = Ok k) by (apply zat_ok; rewrite <- E1, znth_app_r, Z.sub_diag by lia; apply znth_cons_0).
        rewrite Hx. cbn [obind]. rewrite Hv. cbn [obind]. rewrite map_map. rewrite (map_ext _ (fun i => zlen (pk ++ [k]) + i)) by (intros; rewrite zlen_app; change (zlen [k]) with 1; lia).
        rewrite I3. reflexivity. }
      destruct (G [] ks eq_refl) as (kvs & G1 & G2 & G3). exists kvs. split; [exact G1|]. split; [exact G2|]. change (zlen []) with 0 in G3.
      rewrite map_ext_in with (g := fun i => i) in G3 by (intros; lia). rewrite map_id in G3. exact G3. }
    destruct G as (kvs & G1 & G2 & G3). exists (ofpairs keq kvs).
    assert (Nf : NoDup (map fst kvs)) by (rewrite G1; exact N).
    split.
    - unfold objIndex. change (negb (zlen [zlen ks] =? 1)) with false. cbv iota. change (zat [zlen ks] 0) with (Ok (zlen ks)). cbn [obind].
      pose proof (zlen_nonneg ks). rewrite (proj2 (Z.ltb_ge _ _)) by lia. rewrite G3. reflexivity.
    - split; [apply ofpairs_proper; assumption|]. split; [exact G1|]. intros k Hin. rewrite <- G1 in Hin. apply in_map_iff in Hin as ([k' v] & <- & Hin). cbn [fst].
      rewrite (G2 _ _ Hin). apply ofpairs_At; assumption.
  Qed.
  Theorem C82_missing (d : dict K V) k : At keq d k = None -> objIndex keq d (KOne k) = Err.
  Proof. intros H. unfold objIndex. rewrite H. reflexivity. Qed.
End C82.
(* finding: repeated keys stay repeated, and a later assignment to a new key then
   overwrites another key instead *)
Theorem C82_duplicate_keys :
  let d := mkDict ["a"; "a"]%string [("a"%string, 2)] in
  mkdict String.eqb (fun v => if v =? 0 then Some ([2], [1; 2]) else None) (KArr [2] ["a"; "a"]%string) 0 = Ok d /\
  ~ proper String.eqb d /\
  dict_assign (S := unit) String.eqb (fun _ => None) 0 1 (KOne "b"%string) None 5 d tt
  = ((Ok tt, mkDict ["a"; "a"; "b"]%string [("a", 5); ("b", 0)]%string), tt).
Proof.
  cbv zeta. split; [reflexivity|]. split; [|reflexivity]. intros [N _]. cbn in N. inversion N as [|? ? H _]. apply H. left. reflexivity.
Qed.
Example C82_example : mkdict String.eqb (fun v => if v =? 0 then Some ([2], [1; 2]) else None) (KArr [2] ["x"; "y"]%string) 0
  = Ok (mkDict ["x"; "y"]%string [("x", 1); ("y", 2)]%string).
Proof. reflexivity. Qed.
Print Assumptions C82_vector.
Print Assumptions C82_subset.

(* ------------------------------------------------------------------ C83 *)
Section C83.
  Context {K A S : Type} (keq : K -> K -> bool) (Hk : key_equality keq) (asArray : oval K A -> option (list Z * list (oval K A)))
    (leaf_index : list (@keyarg K) -> A -> outcome (oval K A)).
  Theorem C83_read p (d : dict K (oval K A)) w : p <> [] -> at_keys keq (ofDict d) p w -> objDepthIndex keq leaf_index (map KOne p) d = Ok w.
  Proof. apply index_path. Qed.
  Theorem C83_read_missing p (d : dict K (oval K A)) ks m k rest : at_keys keq (ofDict d) p (Obj ks m) -> At keq (mkDict ks m) k = None ->
    objDepthIndex keq leaf_index (map KOne (p ++ k :: rest)) d = Err.
  Proof. apply index_missing. Qed.
  (* D[k1;k2;..]←R: the path then leads to R, all paths apart from it to what they led
     before, and the dictionaries on the way keep their lists of keys *)
  Theorem C83_assign o p (d : dict K (oval K A)) w R (s : S) : p <> [] -> at_keys keq (ofDict d) p w -> proper_tree keq (ofDict d) ->
    exists d', dict_assign_depth keq asArray o p None R d s = ((Ok tt, d'), s) /\ keysOf d' = keysOf d /\
      at_keys keq (ofDict d') p R /\ objDepthIndex keq leaf_index (map KOne p) d' = Ok R /\
      (forall q x, keys_apart p q -> (at_keys keq (ofDict d') q x <-> at_keys keq (ofDict d) q x)) /\
      (forall q r ks m, p = q ++ r -> r <> [] -> at_keys keq (ofDict d) q (Obj ks m) -> exists m', at_keys keq (ofDict d') q (Obj ks m')).
  Proof.
    intros N P Pr. destruct (assign_path keq Hk asArray p d w N P Pr) as (ints & E & _ & _ & HA). destruct (HA S o R s) as (d' & E1 & E2 & E3 & E4 & E5).
    exists d'. unfold dict_assign_depth. rewrite E. split; [exact E1|]. split; [exact E2|]. split; [exact E3|]. split; [apply index_path; assumption|]. split; assumption.
  Qed.
  (* a key that does not exist is an error (it is not created), nothing changes *)
  Theorem C83_assign_missing o p (d : dict K (oval K A)) ks m k rest f R (s : S) : at_keys keq (ofDict d) p (Obj ks m) -> At keq (mkDict ks m) k = None ->
    proper_tree keq (ofDict d) -> dict_assign_depth keq asArray o (p ++ k :: rest) f R d s = ((Err, d), s).
  Proof. intros P H Pr. unfold dict_assign_depth. rewrite (select_missing keq p d ks m k rest P H Pr). reflexivity. Qed.
End C83.
Example C83_example :
  let d := mkDict ["a"%string] [("a"%string, Obj ["b"%string] [("b"%string, Leaf 1)])] in
  at_keys String.eqb (ofDict d) ["a"; "b"]%string (Leaf 1) /\
  dict_assign_depth (S := unit) String.eqb (fun _ => None) 1 ["a"; "b"]%string None (Leaf 2) d tt
  = ((Ok tt, mkDict ["a"%string] [("a"%string, Obj ["b"%string] [("b"%string, Leaf 2)])]), tt).
Proof. cbv zeta. split; [|reflexivity]. eapply ak_down; [reflexivity|]. eapply ak_down; [reflexivity|]. constructor. Qed.
Print Assumptions C83_assign.

(* ------------------------------------------------------------------ C84 *)
Section C84.
  Context {K V : Type} (keq : K -> K -> bool) (Hk : key_equality keq).
  Implicit Types d e l r : dict K V.

  (* f D: the keys of D in their order, f applied to every value *)
  Theorem C84_monadic (f : V -> outcome V) d : proper keq d -> (forall k v, At keq d k = Some v -> exists w, f v = Ok w) ->
    exists e, table1 keq f d = Ok e /\ proper keq e /\ keysOf e = keysOf d /\
      forall k v w, At keq d k = Some v -> f v = Ok w -> At keq e k = Some w.
  Proof.
    intros P H. set (h := fun k => match At keq d k with Some v => f v | None => Err end).
    destruct (mapM_pairs h (keysOf d)) as (kvs & E1 & E2 & E3).
    { intros k I. apply P in I as [v Ev]. unfold h. rewrite Ev. eauto. }
    assert (N : NoDup (map fst kvs)) by (rewrite E2; apply P).
    exists (ofpairs keq kvs). unfold table1. rewrite (mapM_ext _ (fun k => let* w := h k in Ok (k, w))), E1.
    2:{ intros k _. unfold h. destruct (At keq d k); reflexivity. }
    split; [reflexivity|]. split; [apply ofpairs_proper; assumption|]. split; [exact E2|].
    intros k v w Ev Ew. apply ofpairs_At; [exact Hk|exact N|]. apply E3. split; [apply P; eauto|]. unfold h. rewrite Ev. exact Ew.
  Qed.
  (* if f fails for one of the values, no dictionary is returned *)
  Theorem C84_monadic_fails (f : V -> outcome V) d k v : proper keq d -> At keq d k = Some v -> (forall w, f v <> Ok w) -> forall e, table1 keq f d <> Ok e.
  Proof.
    intros P Ev Hf e E. unfold table1 in E. set (h := fun k => match At keq d k with Some v => f v | None => Err end).
    rewrite (mapM_ext _ (fun k => let* w := h k in Ok (k, w))) in E.
    2:{ intros k' _. unfold h. destruct (At keq d k'); reflexivity. }
    destruct (mapM _ (keysOf d)) as [kvs| |] eqn:E1; try discriminate. destruct (mapM_pairs_inv h _ _ E1 k) as [w Ew]; [apply P; eauto|].
    unfold h in Ew. rewrite Ev in Ew. exact (Hf w Ew).
  Qed.

  (* the value of D f E at k: f of both values, or of the value and the neutral value that
     stands for the missing one *)
  Inductive joined_value (f : V -> V -> outcome V) (zero : V -> V) l r (k : K) (w : V) : Prop :=
  | jv_both lv rv : At keq l k = Some lv -> At keq r k = Some rv -> f lv rv = Ok w -> joined_value f zero l r k w
  | jv_left lv : At keq l k = Some lv -> At keq r k = None -> f lv (zero lv) = Ok w -> joined_value f zero l r k w
  | jv_right rv : At keq l k = None -> At keq r k = Some rv -> f (zero rv) rv = Ok w -> joined_value f zero l r k w.
  (* D f E: the keys of D, then the further keys of E *)
  Theorem C84_dyadic (f : V -> V -> outcome V) (zero : V -> V) l r : proper keq l -> proper keq r ->
    (forall k, In k (keysOf l ++ keysOf r) -> exists w, joined_value f zero l r k w) ->
    exists e, tableBoth keq f zero l r = Ok e /\ proper keq e /\ first_order (keysOf l ++ keysOf r) (keysOf e) /\
      forall k w, joined_value f zero l r k w -> At keq e k = Some w.
  Proof.
    intros Pl Pr H.
    set (h1 := fun k => match At keq l k with None => Panic | Some lv => f lv (match At keq r k with Some rv => rv | None => zero lv end) end).
    set (h2 := fun k => match At keq r k with None => Panic | Some rv => f (zero rv) rv end).
    destruct (mapM_pairs h1 (keysOf l)) as (a & A1 & A2 & A3).
    { intros k I. destruct (H k) as [w J]; [apply in_app_iff; left; exact I|]. exists w. unfold h1. destruct J as [lv rv El Er E|lv El Er E|rv El Er E].
      - rewrite El, Er. exact E.
      - rewrite El, Er. exact E.
      - apply Pl in I as [v Ev]. congruence. }
    destruct (mapM_opts (has keq l) h2 (keysOf r)) as (os & B1 & B2 & B3).
    { intros k I Hh. destruct (H k) as [w J]; [apply in_app_iff; right; exact I|]. exists w. unfold h2. unfold has in Hh. destruct J as [lv rv El Er E|lv El Er E|rv El Er E].
      - rewrite El in Hh. discriminate.
      - rewrite El in Hh. discriminate.
      - rewrite Er. exact E. }
    cbv zeta in *. set (b := flat_map _ os) in *. 
    assert (EK : map fst (a ++ b) = union_keys keq l r) by (rewrite map_app, A2, B2; reflexivity).
    assert (N : NoDup (map fst (a ++ b))) by (rewrite EK; apply NoDup_union; assumption).
    exists (ofpairs keq (a ++ b)). unfold tableBoth.
    rewrite (mapM_ext _ (fun k => let* w := h1 k in Ok (k, w)) (keysOf l)), A1.
    2:{ intros k _. unfold h1. destruct (At keq l k); reflexivity. } cbn [obind].
    rewrite (mapM_ext _ (fun k => if has keq l k then Ok None else let* w := h2 k in Ok (Some (k, w))) (keysOf r)), B1.
    2:{ intros k _. unfold h2, has. destruct (At keq l k); [reflexivity|]. destruct (At keq r k); reflexivity. } cbn [obind].
    split; [reflexivity|]. split; [apply ofpairs_proper; assumption|]. split.
    { unfold ofpairs. cbn [keysOf]. rewrite EK. apply first_order_app; [apply Pl|apply Pr|]. intros k. apply has_in, Pl. }
    intros k w J. apply ofpairs_At; [exact Hk|exact N|]. apply in_app_iff. destruct J as [lv rv El Er E|lv El Er E|rv El Er E].
    - left. apply A3. split; [apply Pl; eauto|]. unfold h1. rewrite El, Er. exact E.
    - left. apply A3. split; [apply Pl; eauto|]. unfold h1. rewrite El, Er. exact E.
    - right. apply B3. split; [apply Pr; eauto|]. unfold has, h2. rewrite El, Er. split; [reflexivity|exact E].
  Qed.
  (* X f D and D f X with a value X that is no dictionary *)
  Theorem C84_value (f : V -> V -> outcome V) (x : V) d : proper keq d ->
    ((forall k v, At keq d k = Some v -> exists w, f x v = Ok w) ->
     exists e, tableAny keq f true x d = Ok e /\ proper keq e /\ keysOf e = keysOf d /\ forall k v w, At keq d k = Some v -> f x v = Ok w -> At keq e k = Some w) /\
    ((forall k v, At keq d k = Some v -> exists w, f v x = Ok w) ->
     exists e, tableAny keq f false x d = Ok e /\ proper keq e /\ keysOf e = keysOf d /\ forall k v w, At keq d k = Some v -> f v x = Ok w -> At keq e k = Some w).
  Proof.
    intros P. assert (G : forall (g : V -> outcome V), (forall k v, At keq d k = Some v -> exists w, g v = Ok w) ->
      exists e, (let* kvs := mapM (fun k => match At keq d k with None => Panic | Some v => let* w := g v in Ok (k, w) end) (keysOf d) in
                 Ok (mkDict (map fst kvs) (fold_left (fun m kv => mset keq m (fst kv) (snd kv)) kvs []))) = Ok e /\
        proper keq e /\ keysOf e = keysOf d /\ forall k v w, At keq d k = Some v -> g v = Ok w -> At keq e k = Some w).
    { intros g H. set (h := fun k => match At keq d k with Some v => g v | None => Panic end).
      destruct (mapM_pairs h (keysOf d)) as (kvs & E1 & E2 & E3).
      { intros k I. apply P in I as [v Ev]. unfold h. rewrite Ev. eauto. }
      assert (N : NoDup (map fst kvs)) by (rewrite E2; apply P).
      exists (ofpairs keq kvs). rewrite (mapM_ext _ (fun k => let* w := h k in Ok (k, w))), E1.
      2:{ intros k _. unfold h. destruct (At keq d k); reflexivity. }
      split; [reflexivity|]. split; [apply ofpairs_proper; assumption|]. split; [exact E2|].
      intros k v w Ev Ew. apply ofpairs_At; [exact Hk|exact N|]. apply E3. split; [apply P; eauto|]. unfold h. rewrite Ev. exact Ew. }
    split; intros H; [apply (G (f x)); exact H|apply (G (fun v => f v x)); exact H].
  Qed.
End C84.
Example C84_example :
  let l := mkDict ["a"; "b"]%string [("a"%string, 1); ("b"%string, 2)] in
  let r := mkDict ["c"; "b"]%string [("c"%string, 10); ("b"%string, 20)] in
  proper String.eqb l /\ proper String.eqb r /\
  exists e, tableBoth String.eqb (fun x y => Ok (x - y)) (fun _ => 0) l r = Ok e /\ keysOf e = ["a"; "b"; "c"]%string /\
    map (At String.eqb e) ["a"; "b"; "c"]%string = [Some 1; Some (-18); Some (-10)].
Proof.
  assert (P : forall a b x y, String.eqb a b = false -> proper (V := Z) String.eqb (mkDict [a; b] [(a, x); (b, y)])).
  { intros a b x y E. apply String.eqb_neq in E. split; cbn.
    - repeat constructor; cbn; [|tauto]. intros [?|[]]. congruence.
    - intros k. unfold At. cbn. destruct (String.eqb_spec a k); [split; [eauto|tauto]|]. destruct (String.eqb_spec b k); [split; [eauto|tauto]|].
      split; [tauto|]. intros [v ?]. discriminate. }
  cbv zeta. split; [apply P; reflexivity|]. split; [apply P; reflexivity|]. eexists. repeat split; reflexivity.
Qed.
Print Assumptions C84_monadic.
Print Assumptions C84_monadic_fails.
Print Assumptions C84_dyadic.
Print Assumptions C84_value.

(* ------------------------------------------------------------------ C85 *)
Section C85.
  Context {K V : Type} (keq : K -> K -> bool) (Hk : key_equality keq) (cat : V -> V -> outcome V).
  Implicit Types d e l r : dict K V.
  (* D⍪E: the values of E replace those of D *)
  Theorem C85_first l r : proper keq l -> proper keq r ->
    exists e, catDicts keq true cat l r = Ok e /\ proper keq e /\ first_order (keysOf l ++ keysOf r) (keysOf e) /\
      forall k, At keq e k = match At keq r k with Some v => Some v | None => At keq l k end.
  Proof.
    intros Pl Pr. destruct (mapM_atM keq Hk l Pl) as (a & A1 & A2 & A3). destruct (mapM_atM keq Hk r Pr) as (b & B1 & B2 & B3).
    unfold catDicts. rewrite A1. cbn [obind]. rewrite B1. cbn [obind]. eexists. split; [reflexivity|].
    assert (Na : NoDup (map fst a)) by (rewrite A2; apply Pl). assert (Nb : NoDup (map fst b)) by (rewrite B2; apply Pr).
    destruct (fold_first' keq Hk b (ofpairs keq a) (ofpairs_proper keq Hk a Na) Nb) as (F1 & F2 & F3). cbv zeta in *.
    split; [exact F1|]. split; [rewrite <- A2, <- B2; exact F2|]. intros k. rewrite F3, B3, (ofpairs_get keq Hk) by exact Na. rewrite A3. reflexivity.
  Qed.
  (* D,E: the values of common keys are catenated, if this is possible for all of them *)
  Theorem C85_last l r : proper keq l -> proper keq r ->
    (forall k lv rv, At keq l k = Some lv -> At keq r k = Some rv -> exists w, cat lv rv = Ok w) ->
    exists e, catDicts keq false cat l r = Ok e /\ proper keq e /\ first_order (keysOf l ++ keysOf r) (keysOf e) /\
      forall k, match At keq l k, At keq r k with
                | Some lv, Some rv => exists w, cat lv rv = Ok w /\ At keq e k = Some w
                | Some lv, None => At keq e k = Some lv
                | None, x => At keq e k = x
                end.
  Proof.
    intros Pl Pr H. destruct (mapM_atM keq Hk r Pr) as (b & B1 & B2 & B3).
    set (h := fun k => match At keq l k with None => Panic | Some lv => match At keq r k with None => Ok lv | Some rv => cat lv rv end end).
    destruct (mapM_pairs h (keysOf l)) as (a & A1 & A2 & A3).
    { intros k I. apply Pl in I as [v Ev]. unfold h. rewrite Ev. destruct (At keq r k) eqn:Er; [eapply H; eauto|eauto]. }
    unfold catDicts. rewrite (mapM_ext _ (fun k => let* w := h k in Ok (k, w))), A1.
    2:{ intros k _. unfold h, atM. destruct (At keq l k); [|reflexivity]. cbn [obind snd]. destruct (At keq r k); reflexivity. }
    cbn [obind]. rewrite B1. cbn [obind]. eexists. split; [reflexivity|].
    assert (Na : NoDup (map fst a)) by (rewrite A2; apply Pl). assert (Nb : NoDup (map fst b)) by (rewrite B2; apply Pr).
    destruct (fold_last' keq Hk b (ofpairs keq a) (ofpairs_proper keq Hk a Na) Nb) as (F1 & F2 & F3). cbv zeta in *.
    split; [exact F1|]. split; [rewrite <- A2, <- B2; exact F2|]. intros k. rewrite F3.
    assert (G : forall w, In k (keysOf l) -> h k = Ok w -> At keq (ofpairs keq a) k = Some w).
    { intros w I E. rewrite (ofpairs_get keq Hk) by exact Na. apply In_mget; [exact Hk|exact Na|]. apply A3. tauto. }
    destruct (At keq l k) as [lv|] eqn:El.
    - assert (I : In k (keysOf l)) by (apply Pl; eauto). destruct (At keq r k) as [rv|] eqn:Er.
      + destruct (H _ _ _ El Er) as [w Ew]. exists w. split; [exact Ew|]. rewrite (G w); [reflexivity|exact I|]. unfold h. rewrite El, Er. exact Ew.
      + rewrite (G lv); [reflexivity|exact I|]. unfold h. rewrite El, Er. reflexivity.
    - rewrite (ofpairs_get keq Hk) by exact Na. replace (mget keq a k) with (@None V); [apply B3|]. symmetry. apply mget_None; [exact Hk|]. rewrite A2.
      intros I. apply Pl in I as [v ?]. congruence.
  Qed.
End C85.
Example C85_example :
  let l := mkDict ["a"; "b"]%string [("a"%string, [1]); ("b"%string, [2])] in
  let r := mkDict ["c"; "b"]%string [("c"%string, [10]); ("b"%string, [20])] in
  (exists e, catDicts String.eqb true (fun x y => Ok (x ++ y)) l r = Ok e /\ keysOf e = ["a"; "b"; "c"]%string /\
    map (At String.eqb e) ["a"; "b"; "c"]%string = [Some [1]; Some [20]; Some [10]]) /\
  (exists e, catDicts String.eqb false (fun x y => Ok (x ++ y)) l r = Ok e /\ keysOf e = ["a"; "b"; "c"]%string /\
    map (At String.eqb e) ["a"; "b"; "c"]%string = [Some [1]; Some [2; 20]; Some [10]]).
Proof. cbv zeta. split; eexists; repeat split; reflexivity. Qed.
Print Assumptions C85_first.
Print Assumptions C85_last.
