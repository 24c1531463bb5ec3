(* P_Heap6.v -- assignment to lists, dictionaries and variables computes the updates of S_HeapUpdate. *)
From Verif Require Import Base Eff M_Heap S_Heap P_Heap P_Heap2 S_HeapUpdate P_Heap4 P_Heap5.
From Coq Require Import List ZArith Bool Lia.
Import ListNotations.

Section P.
  Context {A U : Type} {BR : ByRef U} (conv : U -> A -> option A) (origin : Z).
  Local Notation hval := (hval A). Local Notation hdr := (hdr A U). Local Notation heap := (heap A U). Local Notation cell := (cell A U).
  Local Notation tree := (tree A U). Local Notation mfun := (mfun A U).
  Implicit Types (h : heap) (v w : hval) (t : tree) (ls : list nat).
  Open Scope nat_scope.
  Context (f : option mfun) (g : option (tree -> tree -> option tree)) (Hfg : modifies f g).
  Definition fresh h : nat -> Prop := fun x => length h <= x.
  Lemma placed_ext h hx r l ls (new : nat -> Prop) o : (forall x, In x ls -> x < length h) -> (forall x, new x -> length h <= x) ->
    placed (h ++ hx) r l ls new o -> placed h r l ls (fresh h) o.
  Proof.
    intros Ll Hn. destruct o as [t|]; [|auto]. intros (h' & ls' & E & R & ND & L & S & I). exists h', ls'. rewrite app_length in L.
    split; [exact E|]. split; [exact R|]. split; [exact ND|]. split; [lia|]. split.
    - intros x Hx Nx. rewrite S; [apply nth_error_app1, Hx|rewrite app_length; lia|exact Nx].
    - intros x Hx. destruct (I x Hx) as [H|H]; [auto|]. right. apply Hn, H.
  Qed.
  Lemma assignList_update h l ts ls idx R tr lr : reads h (HRef l) (Node HLst ts) ls -> NoDup ls -> reads h R tr lr ->
    placed h (assignList f l idx R h) l ls (fresh h) (list_update g (Node HLst ts) idx tr).
  Proof.
    intros Rl ND Rr. pose proof (proj1 (reads_lt h) _ _ _ Rl) as Lls.
    (* R is copied and stored *)
    assert (St : forall y hy ty ly, reads (h ++ hy) y ty ly -> idx <> [] ->
       placed h ((let! x := Copy y in SetDeep l idx x) (h ++ hy)) l ls (fresh h) (deep (Node HLst ts) idx (fun _ => Some ty))).
    { intros y hy ty ly Ry NE. destruct (Copy_ok _ _ _ _ Ry) as (hx & x & lx & Ec & Rx & NDx & Fx). unfold ebind. rewrite Ec, <- app_assoc in *. rewrite app_length in Fx.
      eapply placed_ext; [exact Lls| |apply (SetDeep_deep idx x ty (h ++ hy ++ hx) l ts ls lx NE); auto].
      - cbn. intros z Hz. specialize (Fx z Hz). lia.
      - apply reads_ext, Rl.
      - intros z Hz Hz2. specialize (Fx z Hz). specialize (Lls z Hz2). lia. }
    unfold assignList, list_update. destruct f as [f'|], g as [g'|]; try contradiction.
    - destruct idx as [|k idx]; [unfold ebind at 1, ebind at 1; cbn; eexists; reflexivity|]. assert (NE : k :: idx <> []) by discriminate.
      revert NE St. generalize (k :: idx). clear k idx. intros idx NE St. rewrite deep_part. cbn [combined].
      pose proof (GetDeep_part idx h l ts ls NE Rl) as G. unfold ebind at 1, ebind at 1. destruct (part (Node HLst ts) idx) as [x|]; [|rewrite G; eexists; reflexivity].
      destruct G as (v & lx & E & Rx & _). rewrite E. pose proof (Hfg h v R x lx tr lr Rx Rr) as Hf. destruct (g' x tr) as [y|]; [|destruct Hf as (h1 & E1); rewrite E1; eexists; reflexivity].
      destruct Hf as (r & h1 & ly & E1 & Ry & _). rewrite E1. apply (St r h1 y ly Ry NE).
    - unfold ebind at 1, eret. destruct idx as [|k idx].
      + destruct (Copy_ok _ _ _ _ Rr) as (hx & x & lx & Ec & _). unfold ebind. rewrite Ec. eexists. reflexivity.
      + cbn [combined]. pose proof (St R [] tr lr) as G. rewrite app_nil_r in G. apply G; [exact Rr|discriminate].
  Qed.
  (* ---------- dictionaries ---------- *)
  Lemma dset_placed h l hd ks ts l1 lk l2 n kv h1 v' tv lv : by_reference hd = false ->
    nth_error h l = Some (mkCell hd ks) -> znth ks n = Some kv -> NoDup (l :: l1 ++ lk ++ l2) ->
    reads_all h ks ts (l1 ++ lk ++ l2) ->
    (forall h' k' t' lk', (forall x, In x l1 \/ In x l2 -> nth_error h' x = nth_error h x) -> reads h' k' t' lk' ->
        reads_all h' (zupd ks n k') (zupd ts n t') (l1 ++ lk' ++ l2)) ->
    length h <= length h1 -> same_but h h1 lk -> reads h1 v' tv lv ->
    placed h (dset l n v' h1) l (l :: l1 ++ lk ++ l2) (fresh h) (Some (Node hd (zupd ts n tv))).
  Proof.
    intros Hbr Hc Hk ND Ra Hu L S Rv. inversion ND as [|? ? Nl ND']; subst. apply NoDup_parts in ND' as (ND1 & ND' & D1). apply NoDup_parts in ND' as (NDk & ND2 & D2).
    rewrite !in_app_iff in Nl. assert (Ll : l < length h) by (apply nth_error_Some; congruence).
    assert (L12 : forall x, In x l1 \/ In x l2 -> x < length h) by (intros x Hx; apply (proj2 (reads_lt h) _ _ _ Ra); rewrite !in_app_iff; tauto).
    destruct (Copy_ok _ _ _ _ Rv) as (hx & x & lx & Ec & Rx & NDx & Fx). unfold dset, ebind, cell_at. rewrite Ec.
    assert (Hc1 : nth_error (h1 ++ hx) l = Some (mkCell hd ks)) by (rewrite nth_error_app1, S by (try lia; tauto); exact Hc). rewrite Hc1. cbn [hdof kids]. unfold write.
    exists (hupd (h1 ++ hx) l (mkCell hd (zupd ks n x))), (l :: l1 ++ lx ++ l2). split; [reflexivity|].
    assert (Same : forall z, z < length h -> z <> l -> ~ In z lk -> nth_error (hupd (h1 ++ hx) l (mkCell hd (zupd ks n x))) z = nth_error h z).
    { intros z Hz Hn Hnk. rewrite hupd_neq by exact Hn. rewrite nth_error_app1 by lia. apply S; assumption. }
    split; [|split; [|split; [|split]]].
    - apply (rd_ref _ l (mkCell hd (zupd ks n x))); [apply hupd_eq; rewrite app_length; lia|exact Hbr|]. cbn [kids]. apply Hu.
      + intros z Hz. apply Same; [apply L12, Hz|intros ->; tauto|]. intros Hz2. destruct Hz as [Hz|Hz]; [apply (D1 z Hz); apply in_or_app; auto|apply (D2 z Hz2 Hz)].
      + eapply (proj1 (reads_frame (h1 ++ hx) _)); [exact Rx|]. intros z Hz. apply hupd_neq. intros ->. specialize (Fx _ Hz). lia.
    - constructor.
      + rewrite !in_app_iff. intros [H|[H|H]]; [tauto| |tauto]. specialize (Fx _ H). lia.
      + apply NoDup_two; [exact ND1|apply NoDup_two; [exact NDx|exact ND2|]|].
        * intros z Hz Hz2. specialize (Fx z Hz). specialize (L12 z (or_intror Hz2)). lia.
        * intros z Hz Hz2. apply in_app_or in Hz2 as [Hz2|Hz2]; [|apply (D1 z Hz); apply in_or_app; auto]. specialize (Fx z Hz2). specialize (L12 z (or_introl Hz)). lia.
    - rewrite hupd_length, app_length. lia.
    - intros z Hz Hn. apply Same; [exact Hz|intros ->; apply Hn; left; reflexivity|]. intros Hi. apply Hn. right. rewrite !in_app_iff. auto.
    - intros z [->|Hz]; [left; left; reflexivity|]. rewrite !in_app_iff in Hz. destruct Hz as [Hz|[Hz|Hz]]; [left; right; rewrite !in_app_iff; auto| |left; right; rewrite !in_app_iff; auto].
      right. unfold fresh. specialize (Fx z Hz). lia.
  Qed.
  Lemma placed_trans h h1 (r : outcome unit * heap) l ls ls1 o : (forall x, In x ls -> x < length h) -> length h <= length h1 -> same_but h h1 ls ->
    (forall x, In x ls1 -> In x ls \/ fresh h x) ->
    placed h1 r l ls1 (fresh h1) o -> placed h r l ls (fresh h) o.
  Proof.
    intros Ll L S I. destruct o as [t|]; [|auto]. intros (h' & ls' & E & R & ND & L' & S' & I'). exists h', ls'.
    split; [exact E|]. split; [exact R|]. split; [exact ND|]. split; [lia|]. split.
    - intros x Hx Nx. rewrite S'; [apply S; assumption|lia|]. intros Hi. destruct (I x Hi) as [H|H]; [tauto|unfold fresh in H; lia].
    - intros x Hx. destruct (I' x Hx) as [H|H]; [apply I, H|]. right. unfold fresh in *. lia.
  Qed.
  Lemma dict_loop_puts R vec xs lxs keys ints : forall h l ts ls i, reads h (HRef l) (Node (HDct keys) ts) ls -> NoDup ls ->
    match vec with
    | None => exists tr, reads h R tr lxs /\ forall x, In x xs -> x = tr
    | Some lr => exists hd, reads h (HRef lr) (Node hd xs) lxs
    end -> (forall x, In x lxs -> ~ In x ls) -> length ints <= length (skipn i xs) ->
    placed h (dict_loop origin f l ints vec (Z.of_nat i) R h) l ls (fresh h) (option_map (Node (HDct keys)) (dict_puts origin g ts (combine ints (skipn i xs)))).
  Proof.
    induction ints as [|d ints IH]; intros h l ts ls i Rl ND Hv Dis Len; cbn [dict_loop combine dict_puts].
    { exists h, ls. split; [reflexivity|]. split; [exact Rl|]. split; [exact ND|]. split; [lia|]. split; [intros x _ _; reflexivity|auto]. }
    pose proof (skipn_znth xs i) as Hs. destruct (skipn i xs) as [|x rest] eqn:Esk; [cbn in Len; lia|]. destruct Hs as [Hx Hrest]. cbn [combine dict_puts].
    pose proof (proj1 (reads_lt h) _ _ _ Rl) as Lls.
    inversion Rl as [|l0 c ts0 ls0 Hc Hd_Hc Ra Et El]; subst. destruct c as [hd0 ks]. cbn [hdof kids] in *. subst hd0. pose proof (reads_all_len _ _ _ _ Ra) as Lk.
    unfold ebind at 1, cell_at at 1. rewrite Hc. cbn [kids]. set (n := (d - origin)%Z) in *.
    destruct (znth ts n) as [old|] eqn:Ho.
    2:{ apply (znth_reads _ _ _ _ _ Ra), znth_none in Ho. replace ((n <? 0) || (zlen ks <=? n))%Z with true by lia. eexists. reflexivity. }
    pose proof (znth_some_range _ _ _ Ho) as Hr. replace ((n <? 0) || (zlen ks <=? n))%Z with false by lia.
    destruct (znth ks n) as [ko|] eqn:Hk; [|apply (znth_reads _ _ _ _ _ Ra) in Hk; congruence].
    destruct (reads_all_split _ _ _ _ Ra _ _ Hk) as (old' & lk & l1 & l2 & Ht & Ro & -> & Hu). rewrite Ho in Ht. injection Ht as <-.
    (* the value *)
    assert (exists v lv, (match vec with None => eret R | Some lr => let! cr := cell_at lr in if (zlen (kids cr) <=? Z.of_nat i)%Z then efail else elift (zat (kids cr) (Z.of_nat i)) end) h = (Ok v, h) /\ reads h v x lv) as (v & lv & Ev & Rv).
    { destruct vec as [lr|].
      - destruct Hv as (hd & Rr). inversion Rr as [|l0 c ts0 ls0 Hcr Hd_Hcr Rar Et El]; subst. unfold ebind, cell_at. rewrite Hcr. pose proof (reads_all_len _ _ _ _ Rar) as Lr.
        pose proof (znth_some_range _ _ _ Hx) as Hrx. replace (zlen (kids c) <=? Z.of_nat i)%Z with false by lia.
        destruct (znth (kids c) (Z.of_nat i)) as [v|] eqn:Hkr; [|apply (znth_reads _ _ _ _ _ Rar) in Hkr; congruence].
        destruct (reads_all_split _ _ _ _ Rar _ _ Hkr) as (x' & lv & _ & _ & Hx' & Rv & _). rewrite Hx in Hx'. injection Hx' as <-.
        exists v, lv. unfold elift. rewrite (proj2 (zat_ok _ _ _) Hkr). auto.
      - destruct Hv as (tr & Rr & Hall). exists R, lxs. split; [reflexivity|]. rewrite (Hall x); [exact Rr|]. apply (znth_In _ _ _ Hx). }
    unfold ebind at 1. rewrite Ev.
    (* the modified value *)
    assert (Hm : match combined g old x with
                 | Some y => exists v' h1 lv', (match f with None => eret v | Some f => let! x0 := elift (zat ks n) in f x0 v end) h = (Ok v', h ++ h1) /\ reads (h ++ h1) v' y lv'
                 | None => exists h1, (match f with None => eret v | Some f => let! x0 := elift (zat ks n) in f x0 v end) h = (Err, h1)
                 end).
    { unfold combined. destruct f as [f'|], g as [g'|]; try contradiction.
      - unfold ebind, elift. rewrite (proj2 (zat_ok _ _ _) Hk). pose proof (Hfg h ko v old lk x lv Ro Rv) as Hf. destruct (g' old x) as [y|].
        + destruct Hf as (r & h1 & lr & E1 & Rr & _). exists r, h1, lr. auto.
        + destruct Hf as (h1 & E1). exists (h ++ h1). exact E1.
      - exists v, [], lv. rewrite app_nil_r. auto. }
    unfold ebind at 1. destruct (combined g old x) as [y|]; [|destruct Hm as (h1 & E1); rewrite E1; eexists; reflexivity].
    destruct Hm as (v' & h1 & lv' & E1 & Rv'). rewrite E1. unfold ebind at 1.
    assert (G : placed h (dset l n v' (h ++ h1)) l (l :: l1 ++ lk ++ l2) (fresh h) (Some (Node (HDct keys) (zupd ts n y)))).
    { eapply dset_placed; try eassumption; try reflexivity.
      - rewrite app_length. lia.
      - intros z Hz _. apply nth_error_app1, Hz. }
    destruct G as (h2 & ls2 & E2 & R2 & ND2 & L2 & S2 & I2). rewrite E2. replace (Z.of_nat i + 1)%Z with (Z.of_nat (S i)) by lia.
    eapply placed_trans; [exact Lls|exact L2|exact S2|exact I2|]. apply (IH h2 l (zupd ts n y) ls2 (S i) R2 ND2).
    - destruct vec as [lr|].
      + destruct Hv as (hd & Rr). exists hd. eapply same_reads; [exact S2|exact Rr|exact Dis].
      + destruct Hv as (tr & Rr & Hall). exists tr. split; [|exact Hall]. eapply same_reads; [exact S2|exact Rr|exact Dis].
    - intros z Hz Hz2. destruct (I2 z Hz2) as [H|H]; [exact (Dis z Hz H)|].
      assert (z < length h); [|unfold fresh in H; lia]. destruct vec as [lr|]; [destruct Hv as (hd & Rr)|destruct Hv as (tr & Rr & _)]; exact (proj1 (reads_lt h) _ _ _ Rr z Hz).
    - cbn [length] in Len. lia.
  Qed.
  Lemma dict_flat_update h l keys ts ls ints R tr lr : reads h (HRef l) (Node (HDct keys) ts) ls -> NoDup ls -> reads h R tr lr -> (forall x, In x lr -> ~ In x ls) ->
    placed h (dict_flat origin f l ints R h) l ls (fresh h) (flat_update origin g keys ts ints tr).
  Proof.
    intros Rl ND Rr Dis.
    assert (Sc : placed h (dict_loop origin f l ints None 0 R h) l ls (fresh h) (option_map (Node (HDct keys)) (dict_puts origin g ts (combine ints (map (fun _ => tr) ints))))).
    { apply (dict_loop_puts R None (map (fun _ => tr) ints) lr keys ints h l ts ls 0 Rl ND); [|exact Dis|cbn; rewrite map_length; lia].
      exists tr. split; [exact Rr|]. intros x Hx. apply in_map_iff in Hx as (? & <- & _). reflexivity. }
    unfold dict_flat, flat_update, dict_values. inversion Rr as [a|rl c xs rls Hc Hd_Hc Ra]; subst.
    - unfold as_array, ebind at 1, eret. exact Sc.
    - pose proof (reads_all_len _ _ _ _ Ra) as Lk. unfold zlen in Lk.
      assert (Vc : length ints = length xs -> placed h (dict_loop origin f l ints (Some rl) 0 (HRef rl) h) l ls (fresh h) (option_map (Node (HDct keys)) (dict_puts origin g ts (combine ints xs)))).
      { intros El. apply (dict_loop_puts (HRef rl) (Some rl) xs (rl :: rls) keys ints h l ts ls 0 Rl ND); [|exact Dis|cbn; lia]. exists (hdof c). exact Rr. }
      unfold as_array, ebind at 1, ebind at 1, cell_at. rewrite Hc. destruct c as [hdc ks]. cbn [hdof kids] in *. unfold zlen.
      destruct hdc as [u rds| |keys']; unfold eret; [| |exact Sc].
      all: destruct (1 <? length ints) eqn:E1; [apply Nat.ltb_lt in E1; replace (1 <? Z.of_nat (length ints))%Z with true by lia|apply Nat.ltb_ge in E1; replace (1 <? Z.of_nat (length ints))%Z with false by lia; exact Sc].
      all: destruct (length ints =? length xs) eqn:E2; [apply Nat.eqb_eq in E2; replace (Z.of_nat (length ints) =? Z.of_nat (length ks))%Z with true by lia; exact (Vc E2)|
        apply Nat.eqb_neq in E2; replace (Z.of_nat (length ints) =? Z.of_nat (length ks))%Z with false by lia; eexists; reflexivity].
  Qed.
  Lemma assignObject_update R tr lr ints : forall h l keys ts ls, reads h (HRef l) (Node (HDct keys) ts) ls -> NoDup ls -> reads h R tr lr -> (forall x, In x lr -> ~ In x ls) ->
    placed h (assignObject conv origin f l ints R h) l ls (fresh h) (dict_update conv origin g (Node (HDct keys) ts) ints tr).
  Proof.
    induction ints as [|i0 rest IH]; intros h l keys ts ls Rl ND Rr Dis; cbn [assignObject dict_update]; [apply dict_flat_update with (lr := lr); assumption|].
    destruct rest as [|i1 rest]; [destruct (i0 <? 0)%Z; apply dict_flat_update with (lr := lr); assumption|].
    destruct (i0 <? 0)%Z eqn:Ei; [|apply dict_flat_update with (lr := lr); assumption].
    pose proof (proj1 (reads_lt h) _ _ _ Rl) as Lls. set (rst := i1 :: rest) in *. set (k := (-1 - i0)%Z).
    inversion Rl as [|l0 c ts0 ls0 Hc Hd_Hc Ra Et El]; subst. destruct c as [hd0 ks]. cbn [hdof kids] in *. subst hd0. pose proof (reads_all_len _ _ _ _ Ra) as Lk.
    unfold ebind at 1, cell_at. rewrite Hc. cbn [kids].
    destruct (znth ts k) as [old|] eqn:Ho.
    2:{ apply (znth_reads _ _ _ _ _ Ra), znth_none in Ho. replace (zlen ks <=? k)%Z with true by lia. eexists. reflexivity. }
    pose proof (znth_some_range _ _ _ Ho) as Hr. replace (zlen ks <=? k)%Z with false by lia.
    destruct (znth ks k) as [ko|] eqn:Hk; [|apply (znth_reads _ _ _ _ _ Ra) in Hk; congruence]. unfold ebind at 1, elift. rewrite (proj2 (zat_ok _ _ _) Hk).
    destruct (reads_all_split _ _ _ _ Ra _ _ Hk) as (old' & lk & l1 & l2 & Ht & Ro & -> & Hu). rewrite Ho in Ht. injection Ht as <-.
    destruct old as [a|hd xs]; [inversion Ro; subst; eexists; reflexivity|]. inversion Ro as [|lv c xs' lk' Hcv Hd_Hcv Rav]; subst.
    unfold ebind at 1. rewrite Hcv.
    inversion ND as [|? ? Nl ND']; subst. apply NoDup_parts in ND' as (ND1 & ND' & D1). apply (NoDup_parts (lv :: lk') l2) in ND' as (NDk & ND2 & D2).
    assert (Dk : forall x, In x lr -> ~ In x (lv :: lk')) by (intros x Hx Hx2; apply (Dis x Hx); right; rewrite !in_app_iff; auto).
    destruct c as [hd kv]. cbn [hdof kids] in *.
    (* the rest, when the element has become the tree y in h1 *)
    assert (Fin : forall h1 v' y ly, length h <= length h1 -> same_but h h1 (lv :: lk') -> reads h1 v' y ly ->
       placed h (dset l k v' h1) l (l :: l1 ++ (lv :: lk') ++ l2) (fresh h) (Some (Node (HDct keys) (zupd ts k y)))).
    { intros h1 v' y ly L S Ry. eapply dset_placed; try eassumption; try reflexivity. }
    destruct hd as [u ds| |keys']; cbn [option_map].
    - assert (Ia : is_arr (Node (HArr u ds) xs)) by (red; eauto).
      pose proof (assignArray_update conv f g Hfg h lv (Node (HArr u ds) xs) lk' [zlen rst] rst R tr lr Ro Ia Rr) as G. 
      assert (Nlv : ~ In lv lr) by (intros H; apply (Dk _ H); left; reflexivity). specialize (G Nlv).
      unfold ebind at 1, ebind at 1. destruct (array_update conv g (Node (HArr u ds) xs) [zlen rst] rst tr) as [y|]; [|destruct G as (h' & E); rewrite E; eexists; reflexivity].
      destruct G as (l' & h1 & ls' & E & Ry & _ & _ & L & O). rewrite E. unfold eret. cbn [option_map]. apply (Fin h1 (HRef l') y (l' :: ls') L); [|exact Ry].
      intros z Hz Hn. apply O; [exact Hz|]. intros ->. apply Hn. left. reflexivity.
    - pose proof (assignList_update h lv xs (lv :: lk') rst R tr lr Ro NDk Rr) as G.
      unfold ebind at 1, ebind at 1. destruct (list_update g (Node HLst xs) rst tr) as [y|]; [|destruct G as (h' & E); rewrite E; eexists; reflexivity].
      destruct G as (h1 & ls' & E & Ry & _ & L & S & _). rewrite E. unfold eret. cbn [option_map]. exact (Fin h1 (HRef lv) y _ L S Ry).
    - pose proof (IH h lv keys' xs (lv :: lk') Ro NDk Rr Dk) as G.
      unfold ebind at 1, ebind at 1. destruct (dict_update conv origin g (Node (HDct keys') xs) rst tr) as [y|]; [|destruct G as (h' & E); rewrite E; eexists; reflexivity].
      destruct G as (h1 & ls' & E & Ry & _ & L & S & _). rewrite E. unfold eret. cbn [option_map]. exact (Fin h1 (HRef lv) y _ L S Ry).
  Qed.

  (* ---------- variables ---------- *)
  Context {K : Type} (K_dec : forall a b : K, {a = b} + {a <> b}).
  Local Notation hstate := (hstate A U K).
  Implicit Types (s : hstate).
  Definition updated s (r : outcome unit * hstate) (k : K) ls (o : option tree) : Prop :=
    match o with
    | Some t' => exists s' v' ls', r = (Ok tt, s') /\ vars s' k = Some v' /\ reads (hp s') v' t' ls' /\ NoDup ls' /\
        length (hp s) <= length (hp s') /\ same_but (hp s) (hp s') ls /\ (forall x, In x ls' -> In x ls \/ fresh (hp s) x) /\ forall k', k' <> k -> vars s' k' = vars s k'
    | None => exists s', r = (Err, s')
    end.
  Lemma update_ok s k w t ls ids ds R tr lr : vars s k = Some w -> reads (hp s) w t ls -> NoDup ls -> reads (hp s) R tr lr -> (forall x, In x lr -> ~ In x ls) ->
    updated s (exec conv origin K_dec (Update k f ids ds R) s) k ls (update conv origin g t ids ds tr).
  Proof.
    intros Hw Rw ND Rr Dis. cbn [exec]. rewrite Hw. unfold assignValue, in_heap.
    assert (Pl : forall l (m : H A U unit) o, w = HRef l -> placed (hp s) (m (hp s)) l ls (fresh (hp s)) o ->
      updated s (let (o0, h) := (let! _ := m in eret (@None hval)) (hp s) in
        match o0 with
        | Ok x => match x with Some v => let (o1, h0) := Copy v h in match o1 with Ok x0 => (Ok tt, setvar K_dec (mkHS h0 (vars s)) k (Some x0)) | Err => (Err, mkHS h0 (vars s)) | Panic => (Panic, mkHS h0 (vars s)) end
                  | None => (Ok tt, mkHS h (vars s)) end
        | Err => (Err, mkHS h (vars s)) | Panic => (Panic, mkHS h (vars s)) end) k ls o).
    { intros l m o -> P. unfold ebind, eret. destruct o as [t'|]; [|destruct P as (h' & E); rewrite E; eexists; reflexivity].
      destruct P as (h' & ls' & E & R' & ND' & L & S & I). rewrite E. exists (mkHS h' (vars s)), (HRef l), ls'. cbn [hp vars]. auto 10. }
    destruct w as [a|l]; [inversion Rw; subst; eexists; reflexivity|]. inversion Rw as [|l0 c ts ls0 Hc Hd_Hc Ra]; subst. unfold ebind at 1, cell_at. rewrite Hc.
    destruct (hdof c) as [u dd| |keys] eqn:Eh; cbn [update].
    - assert (Ia : is_arr (Node (HArr u dd) ts)) by (red; eauto).
      assert (Nl : ~ In l lr) by (intros Hi; apply (Dis l Hi); left; reflexivity).
      pose proof (assignArray_update conv f g Hfg (hp s) l (Node (HArr u dd) ts) ls0 ids ds R tr lr Rw Ia Rr Nl) as G. unfold ebind, eret.
      destruct (array_update conv g (Node (HArr u dd) ts) ids ds tr) as [t'|]; [|destruct G as (h' & E); rewrite E; eexists; reflexivity].
      destruct G as (l' & h' & ls' & E & R' & _ & _ & L & O). rewrite E. cbn [hp vars].
      destruct (Copy_ok _ _ _ _ R') as (hx & v' & lx & Ec & Rx & NDx & Fx). rewrite Ec.
      exists (setvar K_dec (mkHS (h' ++ hx) (vars s)) k (Some v')), v', lx. split; [reflexivity|]. unfold setvar. cbn [hp vars].
      split; [destruct (K_dec k k); congruence|]. split; [exact Rx|]. split; [exact NDx|]. rewrite app_length. split; [lia|]. split; [|split].
      + intros x Hx Hn. rewrite nth_error_app1 by lia. apply O; [exact Hx|]. intros ->. apply Hn. left. reflexivity.
      + intros x Hx. right. unfold fresh. specialize (Fx x Hx). lia.
      + intros k' Hk'. destruct (K_dec k k'); congruence.
    - apply (Pl l (assignList f l ds R)); [reflexivity|]. exact (assignList_update (hp s) l ts (l :: ls0) ds R tr lr Rw ND Rr).
    - apply (Pl l (assignObject conv origin f l ds R)); [reflexivity|]. exact (assignObject_update R tr lr ds (hp s) l keys ts (l :: ls0) Rw ND Rr Dis).
  Qed.
End P.
