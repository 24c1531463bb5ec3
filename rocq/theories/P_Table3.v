(* P_Table3.v -- making tables: transposition. *)
From Coq Require Import String.
From Verif Require Import Base M_Array S_Array P_Array M_Structural P_Transpose M_Number S_Number P_Number P_Tower M_Scalar P_Scalar M_Dict S_Dict P_Dict M_Table S_Table P_Table P_Table2.
Open Scope Z_scope.

Section U.
  Context {P : Type} (M : methods P) (t : tower P) (hu : ntype -> bool).
  Local Notation sv := (sval P).
  Lemma Unify_list (l : list sv) up r : Unify M t hu (RMixed (mkArr [zlen l] l)) up = Ok (r, true) -> isUniform r = true -> Unify M t hu (RList l) up = Ok (r, true).
  Proof.
    unfold Unify. cbn [isUniform view elems dims]. destruct l as [|v0 rest]; [intros E U; injection E as <-; discriminate U|].
    destruct (scan M t v0 rest) as (same, max). destruct (negb same && negb up); [discriminate|].
    destruct same.
    - destruct max as [(c, m)|].
      + destruct (uniform_reshape M hu (v0 :: rest) [zlen (v0 :: rest)]) as [[u|]| |]; cbn [obind]; try discriminate; intros E U; [exact E|injection E as <-; discriminate U].
      + destruct v0 as [n|ty s]; [intros E U; injection E as <-; discriminate U|]. destruct (ty =? strT); [intros E _; exact E|intros E U; injection E as <-; discriminate U].
    - destruct max as [(c, m)|]; [|discriminate]. destruct (mapM _ _) as [ns| |]; try discriminate.
      destruct (uniform_reshape M hu (map VNum ns) [zlen (v0 :: rest)]) as [[u|]| |]; cbn [obind]; try discriminate. intros E _. exact E.
  Qed.
  Lemma unify_one_type_any A up : A <> REmpty -> rep_ok M A -> elems (view A) <> [] -> one_type M (elems (view A)) -> (forall v, In v (elems (view A)) -> plain M t hu v) ->
    exists r, Unify M t hu A up = Ok (r, true) /\ view r = view A /\ isUniform r = true /\ rep_ok M r.
  Proof.
    intros Hne Hok Hn H1 Hp. destruct (isUniform A) eqn:U.
    { exists A. split; [destruct A; try discriminate U; reflexivity|]. split; [reflexivity|]. split; assumption. }
    assert (Hw : wf (view A)) by (apply Hok; exact Hn).
    destruct A as [a|l|a|a|a|ty a|]; try discriminate U; try congruence; cbn [view] in *.
    - destruct a as (d, vs). apply unify_one_type; assumption.
    - destruct (unify_one_type M t hu l [zlen l] up H1 Hw Hn Hp) as (r & E & V & U' & R). exists r. split; [apply Unify_list; assumption|]. split; [exact V|]. split; assumption.
  Qed.
  Lemma unify_uptype_any A r : tower_ok M t -> imports_bottom M t -> A <> REmpty -> rep_ok M A -> elems (view A) <> [] -> (forall v, In v (elems (view A)) -> plain M t hu v) ->
    Unify M t hu A true = Ok (r, true) ->
    dims (view r) = dims (view A) /\ unified M t (elems (view A)) (elems (view r)) /\ isUniform r = true /\ rep_ok M r.
  Proof.
    intros Ht Hi Hne Hok Hn Hp E. destruct (isUniform A) eqn:U.
    { assert (r = A) by (destruct A; try discriminate U; cbn in E; congruence). subst r. split; [reflexivity|]. split; [left; reflexivity|]. split; assumption. }
    assert (Hw : wf (view A)) by (apply Hok; exact Hn).
    destruct A as [a|l|a|a|a|ty a|]; try discriminate U; try congruence; cbn [view] in *.
    - destruct a as (d, vs). destruct (unify_uptype M t hu vs d Ht Hi Hw Hn Hp) as (r' & ok & E' & H). rewrite E' in E. injection E as -> ->. apply H. reflexivity.
    - destruct (unify_uptype M t hu l [zlen l] Ht Hi Hw Hn Hp) as (r' & ok & E' & H). destruct ok.
      + destruct (H eq_refl) as (H1 & H2 & H3 & H4). rewrite (Unify_list l true r' E' H3) in E. injection E as <-. split; [exact H1|]. split; [exact H2|]. split; assumption.
      + exfalso. clear - E E' Hn. unfold Unify in *. cbn [isUniform view elems dims] in *. destruct l as [|v0 rest]; [contradiction Hn; reflexivity|].
        destruct (scan M t v0 rest) as (same, max). rewrite Bool.andb_false_r in *. destruct same.
        * destruct max as [(c, m)|].
          -- destruct (uniform_reshape M hu (v0 :: rest) [zlen (v0 :: rest)]) as [[u|]| |]; cbn [obind] in *; discriminate.
          -- destruct v0 as [n|ty s]; [discriminate|]. destruct (ty =? strT); [|discriminate]. destruct (mapM _ _); discriminate.
        * destruct max as [(c, m)|]; [|discriminate]. destruct (mapM _ _) as [ns| |]; try discriminate.
          destruct (uniform_reshape M hu (map VNum ns) [zlen (v0 :: rest)]) as [[u|]| |]; cbn [obind] in *; discriminate.
  Qed.
End U.

Section T.
  Context {P : Type} (M : methods P) (t : tower P) (hu : ntype -> bool) {K : Type} (keq : K -> K -> bool) (Hk : key_equality keq).
  Local Notation sv := (sval P).
  Local Notation dval := (@dval P).
  Definition mk (n : option Z) (m : Z) (keys : list K) : Z := match keys with [] => match n with Some n => n | None => 0 end | _ => m end.
  Lemma loop_ok (d : dict K dval) m keys cs n acc : Forall2 (fun k c => make_column M t hu keq d k = Ok (m, c)) keys cs -> (n = None \/ n = Some m) ->
    transpose_loop M t hu keq d keys n acc =
      Ok (mkTable (mkDict (keysOf acc ++ keys) (fold_left (fun g kv => mset keq g (fst kv) (snd kv)) (combine keys cs) (mapOf acc))) (mk n m keys)).
  Proof.
    intros H. revert n acc. induction H as [|k c keys cs Hc H IH]; intros n acc Hn; cbn [transpose_loop].
    - rewrite app_nil_r. cbn. destruct acc. reflexivity.
    - rewrite Hc. cbn [obind fst snd]. destruct Hn as [->| ->].
      + rewrite IH by (right; reflexivity). cbn [keysOf mapOf combine fold_left fst snd mk]. rewrite <- app_assoc. f_equal. f_equal. destruct keys; reflexivity.
      + rewrite Z.eqb_refl. rewrite IH by (right; reflexivity). cbn [keysOf mapOf combine fold_left fst snd mk]. rewrite <- app_assoc. f_equal. f_equal. destruct keys; reflexivity.
  Qed.
  (* success: every key has a column of the common length *)
  Lemma loop_inv (d : dict K dval) keys : forall n acc T, transpose_loop M t hu keq d keys n acc = Ok T ->
    exists m cs, Forall2 (fun k c => make_column M t hu keq d k = Ok (m, c)) keys cs /\ (keys <> [] -> n = None \/ n = Some m) /\ (keys = [] -> n = None \/ n = Some m).
  Proof.
    induction keys as [|k keys IH]; intros n acc T E; cbn [transpose_loop] in E.
    - exists (match n with Some m => m | None => 0 end), []. split; [constructor|]. split; [congruence|]. intros _. destruct n; [right|left]; reflexivity.
    - destruct (make_column M t hu keq d k) as [(m, c)| |] eqn:Ec; try discriminate. cbn [obind fst snd] in E.
      destruct (match n with Some n0 => m =? n0 | None => true end) eqn:En; [|discriminate].
      apply IH in E. destruct E as (m' & cs & F & H1 & H2).
      assert (Hm : m' = match n with Some n0 => n0 | None => m end).
      { destruct keys as [|k2 keys2]; [destruct (H2 eq_refl) as [E|E]; [discriminate|injection E as E; exact (eq_sym E)]|destruct (H1 ltac:(discriminate)) as [E|E]; [discriminate|injection E as E; exact (eq_sym E)]]. }
      assert (Hmm : m = m') by (destruct n as [n|]; [apply Z.eqb_eq in En; congruence|congruence]). rewrite <- Hmm in *. clear Hmm.
      exists m, (c :: cs). split; [constructor; assumption|]. split; [|discriminate]. intros _. destruct n as [n|]; [right; congruence|left; reflexivity].
  Qed.
  Lemma loop_err (d : dict K dval) keys : forall n acc, (forall k, In k keys -> make_column M t hu keq d k <> Panic) ->
    (forall T, transpose_loop M t hu keq d keys n acc <> Ok T) -> transpose_loop M t hu keq d keys n acc = Err.
  Proof.
    induction keys as [|k keys IH]; intros n acc Hp Hn; cbn [transpose_loop] in *.
    - exfalso. eapply Hn. reflexivity.
    - destruct (make_column M t hu keq d k) as [(m, c)| |] eqn:Ec; cbn [obind fst snd] in *.
      + destruct (match n with Some n0 => m =? n0 | None => true end); [|reflexivity]. apply IH; [intros k' Hk'; apply Hp; right; exact Hk'|exact Hn].
      + reflexivity.
      + exfalso. apply (Hp k (or_introl eq_refl)). exact Ec.
  Qed.
  (* a table from its columns *)
  Lemma table_of (ks : list K) (cs : list (rep P)) n : NoDup ks -> 0 <= n -> zlen ks = zlen cs ->
    (forall i c, znth cs i = Some c -> isUniform c = true /\ rep_ok M c /\ vector c n) ->
    let d := mkDict ks (fold_left (fun g kv => mset keq g (fst kv) (snd kv)) (combine ks cs) []) in
    good M keq (mkTable d n) /\ forall i k c, znth ks i = Some k -> znth cs i = Some c -> At keq d k = Some c.
  Proof.
    intros Hn H0 Hl H d.
    assert (Hd : d = ofpairs keq (combine ks cs)) by (unfold d, ofpairs; rewrite map_fst_combine by exact Hl; reflexivity).
    assert (Hn' : NoDup (map fst (combine ks cs))) by (rewrite map_fst_combine by exact Hl; exact Hn).
    rewrite Hd. split.
    - split; [apply ofpairs_proper; assumption|]. split; [exact H0|]. intros k r E. cbn [tdict Rows] in *. apply (ofpairs_At keq Hk) in E; [|exact Hn'].
      apply in_combine_r in E. apply In_znth in E. destruct E as (i & Hi). apply (H i). exact Hi.
    - intros i k c Ei Ec. apply (ofpairs_At keq Hk); [exact Hn'|]. apply znth_In with (i := i). apply znth_combine; assumption.
  Qed.
End T.
