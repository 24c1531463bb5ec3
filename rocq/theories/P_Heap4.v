(* P_Heap4.v -- the heap operations compute the updates of S_HeapUpdate. *)
From Verif Require Import Base Eff M_Heap S_Heap P_Heap P_Heap2 S_HeapUpdate.
From Coq Require Import List ZArith Bool Lia.
Import ListNotations.

Section P.
  Context {A U : Type} {BR : ByRef U} (conv : U -> A -> option A) (origin : Z).
  Local Notation hval := (hval A). Local Notation hdr := (hdr A U). Local Notation heap := (heap A U). Local Notation cell := (cell A U).
  Local Notation tree := (tree A U). Local Notation mfun := (mfun A U).
  Implicit Types (h : heap) (v w : hval) (t : tree) (ls : list nat).
  Open Scope nat_scope.

  Lemma reads_all_len h vs ts ls : reads_all h vs ts ls -> zlen vs = zlen ts.
  Proof. induction 1; [reflexivity|]. rewrite !zlen_cons. lia. Qed.
  Lemma reads_all_split h : forall vs ts ls, reads_all h vs ts ls -> forall i k, znth vs i = Some k ->
    exists t lk l1 l2, znth ts i = Some t /\ reads h k t lk /\ ls = l1 ++ lk ++ l2 /\
      forall h' k' t' lk', (forall x, In x l1 \/ In x l2 -> nth_error h' x = nth_error h x) -> reads h' k' t' lk' ->
        reads_all h' (zupd vs i k') (zupd ts i t') (l1 ++ lk' ++ l2).
  Proof.
    induction 1 as [|v t lv vs ts ls' Rv Ra IH]; intros i k Hk; [rewrite (proj2 (znth_none _ _)) in Hk; [discriminate|]; change (zlen (@nil hval)) with 0%Z; lia|].
    pose proof (znth_some_range _ _ _ Hk) as Hr. destruct (Z.eq_dec i 0) as [->|Hi].
    - rewrite znth_cons_0 in Hk. injection Hk as ->. exists t, lv, [], ls'. split; [apply znth_cons_0|]. split; [exact Rv|]. split; [reflexivity|].
      intros h' k' t' lk' Hs Rk. change (zupd (k :: vs) 0 k') with (k' :: vs). change (zupd (t :: ts) 0 t') with (t' :: ts).
      cbn [app]. constructor; [exact Rk|]. eapply (proj2 (reads_frame h h')); [exact Ra|]. auto.
    - rewrite znth_cons_pos in Hk by lia. destruct (IH _ _ Hk) as (t0 & lk & l1 & l2 & Ht & Rk & -> & Hu). exists t0, lk, (lv ++ l1), l2.
      split; [rewrite znth_cons_pos by lia; exact Ht|]. split; [exact Rk|]. split; [rewrite <- app_assoc; reflexivity|].
      intros h' k' t' lk' Hs Rk'.
      assert (Zc : forall X (y : X) l0 z, zupd (y :: l0) i z = y :: zupd l0 (i - 1) z).
      { intros X y l0 z. unfold zupd. destruct (i <? 0)%Z eqn:E1; [lia|]. destruct (i - 1 <? 0)%Z eqn:E2; [lia|]. replace (Z.to_nat i) with (S (Z.to_nat (i - 1))) by lia. reflexivity. }
      rewrite !Zc, <- app_assoc. constructor.
      + eapply (proj1 (reads_frame h h')); [exact Rv|]. intros x Hx. apply Hs. left. apply in_or_app. auto.
      + apply Hu; [|exact Rk']. intros x Hx. apply Hs. rewrite in_app_iff. tauto.
  Qed.
  Lemma znth_reads h vs ts ls i : reads_all h vs ts ls -> znth vs i = None <-> znth ts i = None.
  Proof. intros R. rewrite !znth_none, (reads_all_len _ _ _ _ R). reflexivity. Qed.
  (* writing a cell *)
  Lemma reads_write h l hd0 ks ts ls i k v tv lv hd' : by_reference hd' = false -> nth_error h l = Some (mkCell hd0 ks) -> reads_all h ks ts ls -> znth ks i = Some k ->
    reads h v tv lv -> ~ In l lv ->
    exists ls', reads (hupd h l (mkCell hd' (zupd ks i v))) (HRef l) (Node hd' (zupd ts i tv)) (l :: ls') /\
      (NoDup (l :: ls) -> NoDup lv -> (forall x, In x lv -> ~ In x ls) -> NoDup (l :: ls')) /\ (forall x, In x ls' -> In x ls \/ In x lv).
  Proof.
    intros Hbr Hc Ra Hk Rv Nl. pose proof (reads_acyclic h l _ ts ls Hc Ra) as Nls.
    assert (Ll : l < length h) by (apply nth_error_Some; congruence).
    destruct (reads_all_split _ _ _ _ Ra _ _ Hk) as (t & lk & l1 & l2 & Ht & Rk & -> & Hu).
    exists (l1 ++ lv ++ l2). split; [|split].
    - apply (rd_ref _ l (mkCell hd' (zupd ks i v))); [apply hupd_eq; exact Ll|exact Hbr|]. cbn [kids]. apply Hu.
      + intros x Hx. apply hupd_neq. intros ->. apply Nls. rewrite !in_app_iff. tauto.
      + eapply (proj1 (reads_frame h _)); [exact Rv|]. intros x Hx. apply hupd_neq. intros ->. contradiction.
    - intros ND NDv Dis. inversion ND as [|? ? N1 N2]; subst. constructor.
      + rewrite !in_app_iff. rewrite !in_app_iff in Nls. tauto.
      + apply NoDup_two.
        * clear - N2. induction l1; [constructor|]. cbn in N2. inversion N2; subst. constructor; [|auto]. rewrite in_app_iff in H1. tauto.
        * apply NoDup_two; [exact NDv| |].
          -- clear - N2. induction l1; [|inversion N2; auto]. cbn in N2. induction lk; [exact N2|inversion N2; auto].
          -- intros x Hx Hx2. apply (Dis x Hx). rewrite !in_app_iff. auto.
        * intros x Hx Hx2. apply in_app_or in Hx2 as [Hx2|Hx2]; [apply (Dis x Hx2); rewrite !in_app_iff; auto|].
          clear - N2 Hx Hx2. induction l1 as [|y l1 IH]; [destruct Hx|]. cbn in N2. inversion N2 as [|? ? H1 H2]; subst. destruct Hx as [->|Hx]; [apply H1; rewrite !in_app_iff; auto|auto].
    - intros x. rewrite !in_app_iff. tauto.
  Qed.

  Definition is_arr (t : tree) : Prop := exists u ds ts, t = Node (HArr u ds) ts.
  Definition got_array h (r : outcome nat * heap) (l : nat) (o : option tree) : Prop :=
    match o with
    | Some t' => exists l' h' ls', r = (Ok l', h') /\ reads h' (HRef l') t' (l' :: ls') /\ is_arr t' /\ (l' = l \/ length h <= l') /\ length h <= length h' /\ only h h' l
    | None => exists h', r = (Err, h')
    end.
  Lemma set_upgrade_put h l u ds ks ts ls i v tv lv : by_reference (@HArr A U u ds) = false -> nth_error h l = Some (mkCell (HArr u ds) ks) -> reads_all h ks ts ls -> reads h v tv lv -> ~ In l lv ->
    got_array h ((fun h => match arr_set conv l i v h with
             | (Ok _, h') => (Ok l, h')
             | (Err, h') => (let! l' := upgrade l in let! _ := arr_set conv l' i v in eret l') h'
             | (Panic, h') => (Panic, h')
             end) h) l (match znth ts i with None => None | Some _ => Some (match stored conv u tv with Some y' => Node (HArr u ds) (zupd ts i y') | None => Node (HArr None ds) (zupd ts i tv) end) end).
  Proof.
    intros Hbr Hc Ra Rv Nl. assert (Ll : l < length h) by (apply nth_error_Some; congruence).
    destruct (znth ts i) as [x|] eqn:Ht.
    - assert (exists k, znth ks i = Some k) as [k Hk]. { destruct (znth ks i) as [k|] eqn:E; [eauto|]. apply (znth_reads _ _ _ _ _ Ra) in E. congruence. }
      pose proof (znth_some_range _ _ _ Hk) as Hr.
      assert (Hin : ((i <? 0) || (zlen ks <=? i))%Z = false) by lia.
      destruct (stored conv u tv) as [y|] eqn:Hs.
      + assert (exists v' lv', setv conv u v = Some v' /\ reads h v' y lv' /\ ~ In l lv') as (v' & lv' & Hv' & Rv' & Nl').
        { unfold stored in Hs. unfold setv. destruct u as [u|]; [|injection Hs as <-; exists v, lv; auto].
          destruct tv as [a|]; [|discriminate]. inversion Rv; subst. destruct (conv u a) as [b|]; [|discriminate]. injection Hs as <-.
          exists (HAtom b), []. split; [reflexivity|]. split; [constructor|auto]. }
        destruct (reads_write _ _ _ _ _ _ _ _ v' y lv' (HArr u ds) Hbr Hc Ra Hk Rv' Nl') as (ls' & Rw & _).
        cbn. unfold arr_set, ebind at 1, cell_at. rewrite Hc. cbn [hdof kids]. rewrite Hin, Hv'. unfold write. cbn [hdof].
        exists l, (hupd h l (mkCell (HArr u ds) (zupd ks i v'))), ls'. split; [reflexivity|]. split; [exact Rw|]. split; [red; eauto|]. split; [auto|].
        rewrite hupd_length. split; [lia|]. intros y0 _ Hy. apply hupd_neq, Hy.
      + assert (Hn : setv conv u v = None).
        { unfold stored in Hs. unfold setv. destruct u as [u|]; [|discriminate]. inversion Rv; subst; [|reflexivity]. destruct (conv u a); [discriminate|reflexivity]. }
        pose (h1 := h ++ [mkCell (HArr None ds) ks]).
        assert (Hc1 : nth_error h1 (length h) = Some (mkCell (HArr None ds) ks)) by (unfold h1; rewrite nth_error_app2, Nat.sub_diag by lia; reflexivity).
        assert (Ra1 : reads_all h1 ks ts ls) by (apply reads_all_ext, Ra). assert (Rv1 : reads h1 v tv lv) by (apply reads_ext, Rv).
        assert (Nl1 : ~ In (length h) lv) by (intros Hi; pose proof (proj1 (reads_lt h) _ _ _ Rv _ Hi); lia).
        destruct (reads_write _ _ _ _ _ _ _ _ v tv lv (HArr None ds) eq_refl Hc1 Ra1 Hk Rv1 Nl1) as (ls' & Rw & _).
        cbn. unfold arr_set at 1, ebind at 1, cell_at. rewrite Hc. cbn [hdof kids]. rewrite Hin, Hn. unfold efail.
        unfold upgrade, ebind at 1, ebind at 1, cell_at. rewrite Hc. cbn [hdof kids]. unfold alloc. fold h1.
        unfold ebind at 1, arr_set, ebind at 1, cell_at. rewrite Hc1. cbn [hdof kids]. rewrite Hin. cbn [setv]. unfold write, eret.
        exists (length h), (hupd h1 (length h) (mkCell (HArr None ds) (zupd ks i v))), ls'. split; [reflexivity|]. split; [exact Rw|]. split; [red; eauto|]. split; [auto|].
        rewrite hupd_length. unfold h1. rewrite app_length. split; [lia|]. intros y0 Hy0 _. rewrite hupd_neq by lia. apply nth_error_app1, Hy0.
    - apply (znth_reads _ _ _ _ _ Ra) in Ht. apply znth_none in Ht. assert (Hin : ((i <? 0) || (zlen ks <=? i))%Z = true) by lia.
      cbn. unfold arr_set at 1, ebind at 1, cell_at. rewrite Hc. cbn [hdof kids]. rewrite Hin. unfold efail.
      unfold upgrade, ebind at 1, ebind at 1, cell_at. rewrite Hc. cbn [hdof kids]. unfold alloc.
      unfold ebind at 1, arr_set, ebind at 1, cell_at. rewrite nth_error_app2, Nat.sub_diag by lia. cbn [nth_error hdof kids]. rewrite Hin. eexists. reflexivity.
  Qed.

  Context (f : option mfun) (g : option (tree -> tree -> option tree)) (Hfg : modifies f g).
  Local Notation combined := (combined g). Local Notation put := (put conv g). Local Notation puts := (puts conv g).
  Lemma only_trans h h1 h2 l l1 : only h h1 l -> only h1 h2 l1 -> (l1 = l \/ length h <= l1) -> length h <= length h1 -> only h h2 l.
  Proof. intros O1 O2 Hl Hh x Hx Hn. rewrite O2 by lia. apply O1; assumption. Qed.
  Lemma got_ext h hx l r o : l < length h -> got_array (h ++ hx) r l o -> got_array h r l o.
  Proof.
    intros Ll. unfold got_array. destruct o as [t'|]; [|auto]. intros (l' & h' & ls' & E & R & I & L & Hh & O). rewrite app_length in *.
    exists l', h', ls'. split; [exact E|]. split; [exact R|]. split; [exact I|]. split; [lia|]. split; [lia|].
    intros x Hx Hn. rewrite O by (rewrite ?app_length; lia). apply nth_error_app1, Hx.
  Qed.
  Lemma modAssign_put h l t ls i v tv lv : reads h (HRef l) t (l :: ls) -> is_arr t -> reads h v tv lv -> ~ In l lv ->
    got_array h (modAssign conv f l i v h) l (put t i tv).
  Proof.
    intros R (u & ds & ts & ->) Rv Nl. inversion R as [|l0 c ts0 ls0 Hc Hd_Hc Ra Et El]; subst. destruct c as [hd0 ks]. cbn [hdof kids] in *. subst hd0.
    assert (Ll : l < length h) by (apply nth_error_Some; congruence).
    unfold modAssign, S_HeapUpdate.put. destruct (i =? -1)%Z.
    { exists l, h, ls. split; [reflexivity|]. split; [exact R|]. split; [red; eauto|]. split; [auto|]. split; [lia|]. intros x _ _. reflexivity. }
    unfold S_HeapUpdate.combined. destruct f as [f'|], g as [g'|]; try contradiction.
    - unfold ebind at 1, ebind at 1, cell_at. rewrite Hc. cbn [kids].
      destruct (znth ts i) as [x|] eqn:Ht.
      + destruct (znth ks i) as [k|] eqn:Hk; [|apply (znth_reads _ _ _ _ _ Ra) in Hk; congruence].
        pose proof (znth_some_range _ _ _ Hk) as Hr. assert (Hin : ((i <? 0) || (zlen ks <=? i))%Z = false) by lia. rewrite Hin.
        unfold ebind at 1, elift. rewrite (proj2 (zat_ok _ _ _) Hk).
        destruct (reads_all_split _ _ _ _ Ra _ _ Hk) as (x' & lk & l1 & l2 & Ht' & Rk & _ & _). rewrite Ht in Ht'. injection Ht' as <-.
        pose proof (Hfg h k v x lk tv lv Rk Rv) as Hf. destruct (g' x tv) as [y|]; [|destruct Hf as (h1 & E); rewrite E; eexists; reflexivity].
        destruct Hf as (r & h1 & lr & E & Rr & Fr). rewrite E. apply got_ext with (hx := h1); [exact Ll|].
        assert (Nr : ~ In l lr) by (intros Hi; pose proof (Fr _ Hi); lia).
        assert (Hc1 : nth_error (h ++ h1) l = Some (mkCell (HArr u ds) ks)) by (rewrite nth_error_app1 by lia; exact Hc).
        pose proof (set_upgrade_put (h ++ h1) l u ds ks ts ls i r y lr Hd_Hc Hc1 (reads_all_ext _ _ _ _ _ Ra) Rr Nr) as G. rewrite Ht in G. exact G.
      + apply (znth_reads _ _ _ _ _ Ra), znth_none in Ht. assert (Hin : ((i <? 0) || (zlen ks <=? i))%Z = true) by lia. rewrite Hin. eexists. reflexivity.
    - unfold ebind at 1, eret at 1. pose proof (set_upgrade_put h l u ds ks ts ls i v tv lv Hd_Hc Hc Ra Rv Nl) as G. destruct (znth ts i); exact G.
  Qed.
  Lemma assign_scalar_puts ds : forall h l t ls v tv lv, reads h (HRef l) t (l :: ls) -> is_arr t -> reads h v tv lv -> ~ In l lv ->
    got_array h (assign_scalar conv f l ds v h) l (puts t (map (fun d => (d, tv)) ds)).
  Proof.
    induction ds as [|d ds IH]; intros h l t ls v tv lv R Ia Rv Nl; cbn [assign_scalar map S_HeapUpdate.puts].
    { exists l, h, ls. split; [reflexivity|]. split; [exact R|]. split; [exact Ia|]. split; [auto|]. split; [lia|]. intros x _ _. reflexivity. }
    pose proof (modAssign_put h l t ls d v tv lv R Ia Rv Nl) as G. unfold ebind. destruct (put t d tv) as [t1|]; [|destruct G as (h' & E); rewrite E; eexists; reflexivity].
    destruct G as (l1 & h1 & ls1 & E & R1 & I1 & L1 & Hh & O). rewrite E.
    assert (Rv1 : reads h1 v tv lv). { eapply (proj1 (reads_frame h h1)); [exact Rv|]. intros x Hx. apply O; [eapply (proj1 (reads_lt h)); eassumption|intros ->; contradiction]. }
    assert (N1 : ~ In l1 lv). { intros Hi. destruct L1 as [->|L1]; [contradiction|]. pose proof (proj1 (reads_lt h) _ _ _ Rv _ Hi). lia. }
    pose proof (IH h1 l1 t1 ls1 v tv lv R1 I1 Rv1 N1) as G. unfold got_array in *. destruct (puts t1 _) as [t2|]; [|exact G].
    destruct G as (l2 & h2 & ls2 & E2 & R2 & I2 & L2 & Hh2 & O2). exists l2, h2, ls2. split; [exact E2|]. split; [exact R2|]. split; [exact I2|]. split; [lia|]. split; [lia|].
    eapply only_trans; eassumption.
  Qed.
  Lemma skipn_znth {X} (xs : list X) i : match skipn i xs with [] => (zlen xs <= Z.of_nat i)%Z | x :: r => znth xs (Z.of_nat i) = Some x /\ skipn (S i) xs = r end.
  Proof.
    revert i. induction xs as [|x xs IH]; intros i; [rewrite skipn_nil; unfold zlen; cbn; lia|]. destruct i; [cbn [skipn]; split; [exact (znth_cons_0 x xs)|reflexivity]|].
    cbn [skipn]. specialize (IH i). destruct (skipn i xs) as [|y r]; [rewrite zlen_cons; lia|]. destruct IH as [H1 H2]. split; [|exact H2].
    rewrite znth_cons_pos by lia. replace (Z.of_nat (S i) - 1)%Z with (Z.of_nat i) by lia. exact H1.
  Qed.
  Lemma assign_vector_puts lr hd xs lrs ds : forall h l t ls i, reads h (HRef l) t (l :: ls) -> is_arr t -> reads h (HRef lr) (Node hd xs) lrs -> ~ In l lrs ->
    got_array h (assign_vector conv f l ds lr (Z.of_nat i) h) l
      (if length ds <=? length (skipn i xs) then puts t (combine ds (skipn i xs)) else None).
  Proof.
    induction ds as [|d ds IH]; intros h l t ls i R Ia Rr Nl; cbn [assign_vector].
    { cbn [length Nat.leb combine S_HeapUpdate.puts]. exists l, h, ls. split; [reflexivity|]. split; [exact R|]. split; [exact Ia|]. split; [auto|]. split; [lia|]. intros x _ _. reflexivity. }
    inversion Rr as [|l0 c ts0 ls0 Hc Hd_Hc Ra Et El]; subst. unfold ebind at 1, cell_at. rewrite Hc. pose proof (reads_all_len _ _ _ _ Ra) as Lk.
    pose proof (skipn_znth xs i) as Hs. destruct (skipn i xs) as [|x rest].
    { replace (zlen (kids c) <=? Z.of_nat i)%Z with true by lia. cbn [length Nat.leb]. eexists. reflexivity. }
    destruct Hs as [Hx Hs]. pose proof (znth_some_range _ _ _ Hx) as Hr. replace (zlen (kids c) <=? Z.of_nat i)%Z with false by lia.
    destruct (znth (kids c) (Z.of_nat i)) as [k|] eqn:Hk; [|apply (znth_reads _ _ _ _ _ Ra) in Hk; congruence].
    unfold ebind at 1, elift. rewrite (proj2 (zat_ok _ _ _) Hk).
    destruct (reads_all_split _ _ _ _ Ra _ _ Hk) as (x' & lk & l1 & l2 & Ht & Rk & _ & _). rewrite Hx in Ht. injection Ht as <-.
    destruct (Copy_ok h k x lk Rk) as (hx & v & lv & Ec & Rv & NDv & Fv). unfold ebind at 1. rewrite Ec.
    assert (Ll : l < length h) by (eapply (proj1 (reads_lt h)); [exact R|left; reflexivity]).
    assert (Nv : ~ In l lv) by (intros Hi; pose proof (Fv _ Hi); lia).
    pose proof (got_ext h hx l _ _ Ll (modAssign_put (h ++ hx) l t ls d v x lv (reads_ext _ _ _ _ _ R) Ia Rv Nv)) as G.
    cbn [length Nat.leb combine S_HeapUpdate.puts]. unfold ebind.
    destruct (put t d x) as [t1|]; [|destruct G as (h' & E); rewrite E; destruct (length ds <=? length rest); eexists; reflexivity].
    destruct G as (l1' & h1 & ls1 & E & R1 & I1 & L1 & Hh & O). rewrite E.
    assert (Rr1 : reads h1 (HRef lr) (Node (hdof c) xs) (lr :: ls0)). { eapply (proj1 (reads_frame h h1)); [exact Rr|]. intros y Hy. apply O; [exact (proj1 (reads_lt h) _ _ _ Rr _ Hy)|intros Hyl; apply Nl; rewrite <- Hyl; exact Hy]. }
    assert (N1 : ~ In l1' (lr :: ls0)). { intros Hi. destruct L1 as [L1|L1]; [apply Nl; rewrite <- L1; exact Hi|]. pose proof (proj1 (reads_lt h) _ _ _ Rr _ Hi). lia. }
    pose proof (IH h1 l1' t1 ls1 (S i) R1 I1 Rr1 N1) as G2. rewrite Hs in G2. replace (Z.of_nat i + 1)%Z with (Z.of_nat (S i)) by lia.
    unfold got_array in *. destruct (length ds <=? length rest); [|exact G2]. destruct (puts t1 _) as [t2|]; [|exact G2].
    destruct G2 as (l2' & h2 & ls2 & E2 & R2 & I2 & L2 & Hh2 & O2). exists l2', h2, ls2. split; [exact E2|]. split; [exact R2|]. split; [exact I2|]. split; [lia|]. split; [lia|].
    eapply only_trans; eassumption.
  Qed.
  Lemma combine_map {X Y} (y : Y) (ds : list X) : combine ds (map (fun _ => y) ds) = map (fun d => (d, y)) ds.
  Proof. induction ds as [|d ds IH]; cbn; [reflexivity|]. rewrite IH. reflexivity. Qed.
  Lemma combine_firstn {X Y} (ds : list X) (xs : list Y) : combine ds (firstn (length ds) xs) = combine ds xs.
  Proof. revert xs. induction ds as [|d ds IH]; intros [|x xs]; cbn; try reflexivity. rewrite IH. reflexivity. Qed.
  Lemma assignArray_update h l t ls ids ds R tr lr : reads h (HRef l) t (l :: ls) -> is_arr t -> reads h R tr lr -> ~ In l lr ->
    got_array h (assignArray conv f l ids ds R h) l (array_update conv g t ids ds tr).
  Proof.
    intros Rl Ia Rr Nl. assert (Ll : l < length h) by (eapply (proj1 (reads_lt h)); [exact Rl|left; reflexivity]).
    assert (Sc : forall x tx lx, reads h x tx lx -> got_array h ((let! v := Copy x in assign_scalar conv f l ds v) h) l (puts t (combine ds (map (fun _ => tx) ds)))).
    { intros x tx lx Rx. destruct (Copy_ok h x tx lx Rx) as (hx & v & lv & Ec & Rv & NDv & Fv). unfold ebind. rewrite Ec, combine_map.
      apply got_ext with (hx := hx); [exact Ll|]. apply (assign_scalar_puts ds (h ++ hx) l t ls v tx lv); [apply reads_ext, Rl|exact Ia|exact Rv|]. intros Hi. pose proof (Fv _ Hi). lia. }
    assert (Vc : forall rl hd xs rds, R = HRef rl -> tr = Node hd xs ->
       got_array h ((if list_eq_dec Z.eq_dec (filter notone ids) (filter notone rds) then assign_vector conv f l ds rl 0 else efail) h) l
         (match one_by_one ids ds rds xs with Some vs => puts t (combine ds vs) | None => None end)).
    { intros rl hd xs rds -> ->. unfold one_by_one. destruct (list_eq_dec _ _ _); [|eexists; reflexivity].
      pose proof (assign_vector_puts rl hd xs lr ds h l t ls 0 Rl Ia Rr Nl) as G. cbn [skipn] in G. change (Z.of_nat 0) with 0%Z in G.
      destruct (length ds <=? length xs); [rewrite combine_firstn|]; exact G. }
    unfold assignArray, array_update, values_for. inversion Rr as [a|rl c ts rls Hc Hd_Hc Ra]; subst.
    - unfold as_array, ebind at 1, eret. apply (Sc _ _ _ Rr).
    - unfold as_array, ebind at 1, ebind at 1, cell_at. rewrite Hc. destruct c as [hdc ks]. cbn [hdof kids] in *. pose proof (reads_all_len _ _ _ _ Ra) as Lk.
      destruct hdc as [u rds| |keys]; unfold eret.
      + inversion Ra as [|k tk lk ks' ts' lks' Rk Rks]; subst; [apply (Vc rl _ _ _ eq_refl eq_refl)|].
        inversion Rks; subst; [apply (Sc _ _ _ Rk)|]. apply (Vc rl _ _ _ eq_refl eq_refl).
      + inversion Ra as [|k tk lk ks' ts' lks' Rk Rks]; subst; [apply (Vc rl _ _ _ eq_refl eq_refl)|].
        inversion Rks; subst; [apply (Sc _ _ _ Rk)|]. rewrite Lk. apply (Vc rl _ _ _ eq_refl eq_refl).
      + apply (Sc _ _ _ Rr).
  Qed.
End P.
