(* P_Heap5.v -- assignment to parts of lists and dictionaries computes the updates of S_HeapUpdate. *)
From Verif Require Import Base Eff M_Heap S_Heap P_Heap P_Heap2 S_HeapUpdate P_Heap4.
From Coq Require Import List ZArith Bool Lia.
Import ListNotations.

Section P.
  Context {A U : Type} {BR : ByRef U} (conv : U -> A -> option A) (origin : Z).
  Local Notation hval := (hval A). Local Notation hdr := (hdr A U). Local Notation heap := (heap A U). Local Notation cell := (cell A U).
  Local Notation tree := (tree A U). Local Notation mfun := (mfun A U).
  Implicit Types (h : heap) (v w : hval) (t : tree) (ls : list nat).
  Open Scope nat_scope.

  Lemma NoDup_parts {X} (l1 l2 : list X) : NoDup (l1 ++ l2) -> NoDup l1 /\ NoDup l2 /\ forall x, In x l1 -> ~ In x l2.
  Proof.
    induction l1 as [|a l1 IH]; cbn; intros N; [split; [constructor|]; split; [exact N|]; intros x []|]. inversion N as [|? ? H1 H2]; subst.
    destruct (IH H2) as (N1 & N2 & D). rewrite in_app_iff in H1. split; [constructor; tauto|]. split; [exact N2|]. intros x [->|Hx]; [tauto|apply D, Hx].
  Qed.
  (* the cells outside of ls are unchanged *)
  Definition same_but h h' ls : Prop := forall x, x < length h -> ~ In x ls -> nth_error h' x = nth_error h x.
  Lemma same_reads h h' ls v t lv : same_but h h' ls -> reads h v t lv -> (forall x, In x lv -> ~ In x ls) -> reads h' v t lv.
  Proof. intros S R D. eapply (proj1 (reads_frame h h')); [exact R|]. intros x Hx. apply S; [exact (proj1 (reads_lt h) _ _ _ R _ Hx)|apply D, Hx]. Qed.

  Definition placed h (r : outcome unit * heap) (l : nat) ls (new : nat -> Prop) (o : option tree) : Prop :=
    match o with
    | Some t' => exists h' ls', r = (Ok tt, h') /\ reads h' (HRef l) t' ls' /\ NoDup ls' /\ length h <= length h' /\ same_but h h' ls /\ forall x, In x ls' -> In x ls \/ new x
    | None => exists h', r = (Err, h')
    end.
  (* ---------- lists ---------- *)
  Fixpoint part (t : tree) (idx : list Z) : option tree :=
    match idx with
    | [] => Some t
    | k :: idx' => match t with Node HLst ts => match znth ts k with Some x => part x idx' | None => None end | _ => None end
    end.
  Lemma deep_part F idx : forall t, deep t idx F = match part t idx with Some x => match F x with Some y => deep t idx (fun _ => Some y) | None => None end | None => None end.
  Proof.
    induction idx as [|k idx IH]; intros t; cbn [deep part]; [destruct (F t); reflexivity|]. destruct t as [|[| |] ts]; try reflexivity.
    destruct (znth ts k) as [x|]; [|reflexivity]. rewrite IH. destruct (part x idx) as [y|]; [|reflexivity]. destruct (F y); reflexivity.
  Qed.
  Lemma GetDeep_part idx : forall h l ts ls, idx <> [] -> reads h (HRef l) (Node HLst ts) ls ->
    match part (Node HLst ts) idx with
    | Some x => exists v lx, GetDeep l idx h = (Ok v, h) /\ reads h v x lx /\ incl lx ls
    | None => GetDeep l idx h = (Err, h)
    end.
  Proof.
    induction idx as [|k idx IH]; intros h l ts ls NE R; [congruence|]. inversion R as [|l0 c ts0 ls0 Hc Hd_Hc Ra Et El]; subst. pose proof (reads_all_len _ _ _ _ Ra) as Lk.
    destruct c as [hd0 ks]. cbn [hdof kids] in *. subst hd0. cbn [part]. destruct (znth ts k) as [x|] eqn:Hx.
    - pose proof (znth_some_range _ _ _ Hx) as Hr. assert (Hin : ((k <? 0) || (zlen ks <=? k))%Z = false) by lia.
      destruct (znth ks k) as [v|] eqn:Hv; [|apply (znth_reads _ _ _ _ _ Ra) in Hv; congruence].
      destruct (reads_all_split _ _ _ _ Ra _ _ Hv) as (x' & lx & l1 & l2 & Ht & Rx & -> & _). rewrite Hx in Ht. injection Ht as <-.
      assert (Inc : incl lx (l :: l1 ++ lx ++ l2)) by (intros y Hy; right; rewrite !in_app_iff; auto).
      destruct idx as [|k' idx].
      { cbn [part GetDeep]. unfold ebind, cell_at, elift. rewrite Hc. cbn [kids]. rewrite Hin, (proj2 (zat_ok _ _ _) Hv). exists v, lx. auto. }
      destruct x as [a|hd xs].
      { inversion Rx; subst. cbn [part]. cbn [GetDeep]. unfold ebind, cell_at, elift. rewrite Hc. cbn [kids]. rewrite Hin, (proj2 (zat_ok _ _ _) Hv). reflexivity. }
      inversion Rx as [|l' c' xs' lx' Hc' Hd_Hc' Ra']; subst.
      assert (E : GetDeep l (k :: k' :: idx) h = match hdof c' with HLst => GetDeep l' (k' :: idx) h | _ => (Err, h) end).
      { transitivity ((let! c := (cell_at l : H A U cell) in if ((k <? 0) || (zlen (kids c) <=? k))%Z then efail else let! v := elift (zat (kids c) k) in
             match v with HAtom _ => efail | HRef l' => let! c' := (cell_at l' : H A U cell) in match hdof c' with HLst => GetDeep l' (k' :: idx) | _ => efail end end) h); [reflexivity|].
        unfold ebind, cell_at, elift. rewrite Hc. cbn [kids]. rewrite Hin, (proj2 (zat_ok _ _ _) Hv), Hc'. destruct (hdof c'); reflexivity. }
      rewrite E. destruct (hdof c') as [| |] eqn:Eh; try reflexivity.
      pose proof (IH h l' xs (l' :: lx') ltac:(discriminate) Rx) as G. destruct (part _ _) as [y|]; [|exact G].
      destruct G as (v & ly & Eg & Ry & Iy). exists v, ly. split; [exact Eg|]. split; [exact Ry|]. intros z Hz. apply Inc, Iy, Hz.
    - apply (znth_reads _ _ _ _ _ Ra), znth_none in Hx. cbn [GetDeep]. unfold ebind, cell_at. rewrite Hc. cbn [kids]. replace ((k <? 0) || (zlen ks <=? k))%Z with true by lia. reflexivity.
  Qed.
  Lemma SetDeep_deep idx x tx : forall h l ts ls lx, idx <> [] -> reads h (HRef l) (Node HLst ts) ls -> NoDup ls -> reads h x tx lx -> NoDup lx ->
    (forall y, In y lx -> ~ In y ls) ->
    placed h (SetDeep l idx x h) l ls (fun y => In y lx) (deep (Node HLst ts) idx (fun _ => Some tx)).
  Proof.
    induction idx as [|k idx IH]; intros h l ts ls lx NE R ND Rx NDx Dis; [congruence|]. inversion R as [|l0 c ts0 ls0 Hc Hd_Hc Ra Et El]; subst. pose proof (reads_all_len _ _ _ _ Ra) as Lk.
    destruct c as [hd0 ks]. cbn [hdof kids] in *. subst hd0. cbn [deep]. destruct (znth ts k) as [y|] eqn:Hy.
    2:{ apply (znth_reads _ _ _ _ _ Ra), znth_none in Hy. cbn [SetDeep]. unfold ebind, cell_at. rewrite Hc. cbn [kids]. replace ((k <? 0) || (zlen ks <=? k))%Z with true by lia. eexists. reflexivity. }
    pose proof (znth_some_range _ _ _ Hy) as Hr. assert (Hin : ((k <? 0) || (zlen ks <=? k))%Z = false) by lia.
    destruct (znth ks k) as [v|] eqn:Hv; [|apply (znth_reads _ _ _ _ _ Ra) in Hv; congruence].
    destruct idx as [|k' idx].
    - cbn [deep]. destruct (reads_write _ _ _ _ _ _ _ _ x tx lx HLst eq_refl Hc Ra Hv Rx) as (ls' & Rw & NDw & Iw); [intros Hi; apply (Dis _ Hi); left; reflexivity|].
      cbn [SetDeep]. unfold ebind, cell_at. rewrite Hc. cbn [kids hdof]. rewrite Hin. unfold write. eexists _, (l :: ls'). split; [reflexivity|]. split; [exact Rw|]. split; [apply NDw; auto; intros z Hz Hz2; apply (Dis z Hz); right; exact Hz2|].
      rewrite hupd_length. split; [lia|]. split; [intros z _ Hz; apply hupd_neq; intros ->; apply Hz; left; reflexivity|].
      intros z [->|Hz]; [left; left; reflexivity|]. destruct (Iw z Hz); auto. left. right. assumption.
    - destruct (reads_all_split _ _ _ _ Ra _ _ Hv) as (y' & ly & l1 & l2 & Ht & Ry & -> & Hu). rewrite Hy in Ht. injection Ht as <-.
      inversion ND as [|? ? Nl ND']; subst. apply NoDup_parts in ND' as (ND1 & ND' & D1). apply NoDup_parts in ND' as (NDy & ND2 & D2).
      destruct y as [a|hd ys].
      { inversion Ry; subst. cbn [deep]. cbn [SetDeep]. unfold ebind, cell_at, elift. rewrite Hc. cbn [kids]. rewrite Hin, (proj2 (zat_ok _ _ _) Hv). eexists. reflexivity. }
      inversion Ry as [|l' c' ys' ly' Hc' Hd_Hc' Ra']; subst.
      assert (E0 : SetDeep l (k :: k' :: idx) x h = match hdof c' with HLst => SetDeep l' (k' :: idx) x h | _ => (Err, h) end).
      { transitivity ((let! c := (cell_at l : H A U cell) in if ((k <? 0) || (zlen (kids c) <=? k))%Z then efail else let! v := elift (zat (kids c) k) in
             match v with HAtom _ => efail | HRef l' => let! c' := (cell_at l' : H A U cell) in match hdof c' with HLst => SetDeep l' (k' :: idx) x | _ => efail end end) h); [reflexivity|].
        unfold ebind, cell_at, elift. rewrite Hc. cbn [kids]. rewrite Hin, (proj2 (zat_ok _ _ _) Hv), Hc'. destruct (hdof c'); reflexivity. }
      rewrite E0. destruct (hdof c') as [| |] eqn:Eh; try (eexists; reflexivity).
      pose proof (IH h l' ys (l' :: ly') lx ltac:(discriminate) Ry NDy Rx NDx) as G.
      assert (Dy : forall z, In z lx -> ~ In z (l' :: ly')) by (intros z Hz Hz2; apply (Dis z Hz); right; rewrite !in_app_iff; auto). specialize (G Dy).
      destruct (deep (Node HLst ys) (k' :: idx) (fun _ => Some tx)) as [y2|]; [|exact G].
      destruct G as (h' & ly2 & E & R2 & ND2' & Lh & S & I2). exists h', (l :: l1 ++ ly2 ++ l2). split; [exact E|].
      assert (Inl : forall z, In z l1 \/ In z l2 -> nth_error h' z = nth_error h z).
      { intros z Hz. apply S.
        - apply (proj2 (reads_lt h) _ _ _ Ra). rewrite !in_app_iff. tauto.
        - intros Hz2. destruct Hz as [Hz|Hz]; [apply (D1 z Hz); apply in_or_app; auto|apply (D2 z Hz2 Hz)]. }
      assert (Nl' : nth_error h' l = nth_error h l). { apply S; [apply nth_error_Some; congruence|]. intros Hi. apply Nl. rewrite !in_app_iff. auto. }
      split; [|split; [|split; [exact Lh|split]]].
      + apply (rd_ref h' l (mkCell HLst (zupd ks k (HRef l')))); [|reflexivity|apply Hu; [exact Inl|exact R2]].
        rewrite Nl', Hc. do 2 f_equal. symmetry. apply znth_ext; [apply zlen_zupd|]. intros j Hj. destruct (Z.eq_dec j k) as [->|Hn]; [rewrite znth_zupd_same by lia; congruence|apply znth_zupd_other; lia].
      + constructor.
        * rewrite !in_app_iff. intros [Hi|[Hi|Hi]]; [apply Nl; rewrite !in_app_iff; auto| |apply Nl; rewrite !in_app_iff; auto].
          destruct (I2 l Hi) as [Hi'|Hi']; [apply Nl; rewrite !in_app_iff; auto|]. apply (Dis l Hi'). left. reflexivity.
        * apply NoDup_two; [exact ND1|apply NoDup_two; [exact ND2'|exact ND2|]|].
          -- intros z Hz Hz2. destruct (I2 z Hz) as [Hz'|Hz']; [apply (D2 z Hz' Hz2)|]. apply (Dis z Hz'). right. rewrite !in_app_iff. auto.
          -- intros z Hz Hz2. apply in_app_or in Hz2 as [Hz2|Hz2]; [|apply (D1 z Hz); apply in_or_app; auto].
             destruct (I2 z Hz2) as [Hz'|Hz']; [apply (D1 z Hz); apply in_or_app; auto|]. apply (Dis z Hz'). right. rewrite !in_app_iff. auto.
      + intros z Hz Hn. apply S; [exact Hz|]. intros Hz2. apply Hn. right. rewrite !in_app_iff. auto.
      + intros z [->|Hz]; [left; left; reflexivity|]. rewrite !in_app_iff in Hz. destruct Hz as [Hz|[Hz|Hz]]; [left; right; rewrite !in_app_iff; auto| |left; right; rewrite !in_app_iff; auto].
        destruct (I2 z Hz) as [Hz'|Hz']; [|auto]. left. right. rewrite !in_app_iff. auto.
  Qed.
End P.
