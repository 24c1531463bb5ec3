(* P_Rank.v -- lemmas for M_Rank *)
From Verif Require Import Base M_Array S_Array P_Array M_Structural S_Structural P_Structural P_Take S_Operators M_Operators P_Operators Eff P_Comma M_Rank S_Rank.

Lemma from_end_znth ds j : from_end ds j = if (0 <=? j) && (j <? zlen ds) then znth ds (zlen ds - 1 - j) else None.
Proof.
  unfold from_end. destruct ((0 <=? j) && (j <? zlen ds)) eqn:E; [apply znth_rev; lia|]. apply znth_none. rewrite zlen_rev. lia.
Qed.
Lemma zlen_zmax2 : forall a b, zlen a = zlen b -> zlen (zmax2 a b) = zlen a.
Proof. induction a as [|x a IH]; intros [|y b] H; unfold zlen in *; cbn [length] in *; try reflexivity; try lia. cbn [zmax2 length]. specialize (IH b ltac:(lia)). lia. Qed.
Lemma znth_zmax2 : forall a b i, zlen a = zlen b -> znth (zmax2 a b) i = match znth a i, znth b i with Some x, Some y => Some (Z.max x y) | _, _ => None end.
Proof.
  induction a as [|x a IH]; intros [|y b] i H; try (unfold zlen in H; cbn [length] in H; lia).
  - cbn [zmax2]. unfold znth. destruct (i <? 0); [reflexivity|]. destruct (Z.to_nat i); reflexivity.
  - cbn [zmax2]. destruct (Z.eq_dec i 0) as [->|N]; [rewrite !znth_cons_0; f_equal; destruct (x <? y) eqn:E; lia|].
    destruct (Z.ltb_spec i 0) as [L|L]; [unfold znth; replace (i <? 0) with true by lia; reflexivity|]. rewrite !znth_cons_pos by lia. apply IH. rewrite !zlen_cons in H. lia.
Qed.
Lemma zlen_common_step c s : zlen (common_step c s) = Z.max (zlen c) (zlen s).
Proof.
  unfold common_step, zerosZ. cbv zeta. set (c' := repeat 0 (length s - length c) ++ c).
  assert (L : zlen c' = Z.max (zlen c) (zlen s)) by (unfold c'; rewrite zlen_app, zlen_repeat; unfold zlen; lia).
  clearbody c'. rewrite zlen_app, zlen_zmax2; unfold zlen in *; rewrite ?firstn_length, ?skipn_length; lia.
Qed.
Lemma from_end_step c s j : Forall (fun d => 0 <= d) s ->
  from_end (common_step c s) j = match from_end c j, from_end s j with Some x, Some y => Some (Z.max x y) | Some x, None => Some x | None, o => o end.
Proof.
  intros NN. rewrite !from_end_znth, zlen_common_step.
  destruct ((0 <=? j) && (j <? zlen c)) eqn:Ec, ((0 <=? j) && (j <? zlen s)) eqn:Es.
  1-3: replace ((0 <=? j) && (j <? Z.max (zlen c) (zlen s))) with true by lia. 4: replace ((0 <=? j) && (j <? Z.max (zlen c) (zlen s))) with false by lia; reflexivity.
  all: unfold common_step, zerosZ; cbv zeta; set (c' := repeat 0 (length s - length c) ++ c);
    assert (L : zlen c' = Z.max (zlen c) (zlen s)) by (unfold c'; rewrite zlen_app, zlen_repeat; unfold zlen; lia).
  - (* both *)
    rewrite znth_app_r by (unfold zlen in *; rewrite firstn_length; lia).
    rewrite znth_zmax2 by (unfold zlen in *; rewrite skipn_length; lia).
    set (k := (length c' - length s)%nat). assert (Lk : zlen (firstn k c') = Z.max (zlen c) (zlen s) - zlen s) by (unfold zlen, k in *; rewrite firstn_length; lia).
    rewrite Lk. rewrite znth_skipn by lia.
    replace (Z.max (zlen c) (zlen s) - 1 - j - (Z.max (zlen c) (zlen s) - zlen s) + Z.of_nat k) with (Z.max (zlen c) (zlen s) - 1 - j) by (unfold zlen, k in *; lia).
    unfold c'. rewrite znth_app_r by (rewrite zlen_repeat; unfold zlen in *; lia). rewrite zlen_repeat.
    replace (Z.max (zlen c) (zlen s) - 1 - j - Z.of_nat (length s - length c)) with (zlen c - 1 - j) by (unfold zlen; lia).
    replace (Z.max (zlen c) (zlen s) - 1 - j - (Z.max (zlen c) (zlen s) - zlen s)) with (zlen s - 1 - j) by lia.
    destruct (znth_in_range c (zlen c - 1 - j)) as (x & ->); [lia|]. destruct (znth_in_range s (zlen s - 1 - j)) as (y & ->); [lia|]. reflexivity.
  - (* c only: c' = c *)
    assert (E : c' = c) by (unfold c'; replace (length s - length c)%nat with 0%nat by (unfold zlen in *; lia); reflexivity). rewrite E.
    rewrite znth_app_l by (unfold zlen in *; rewrite firstn_length; lia). rewrite znth_firstn by (unfold zlen in *; lia).
    replace (Z.max (zlen c) (zlen s)) with (zlen c) by lia. destruct (znth_in_range c (zlen c - 1 - j)) as (x & ->); [lia|reflexivity].
  - (* s only *)
    set (k := (length c' - length s)%nat). assert (K0 : k = 0%nat) by (unfold k, zlen in *; lia). rewrite K0. cbn [firstn skipn app].
    rewrite znth_zmax2 by (unfold zlen in *; lia). unfold c'. rewrite znth_app_l by (rewrite zlen_repeat; unfold zlen in *; lia).
    rewrite znth_repeat by (unfold zlen in *; lia). replace (Z.max (zlen c) (zlen s)) with (zlen s) by lia.
    destruct (znth_in_range s (zlen s - 1 - j)) as (y & Ey); [lia|]. rewrite Ey. f_equal.
    apply znth_In in Ey. rewrite Forall_forall in NN. specialize (NN y Ey). lia.
Qed.
Lemma from_end_nonneg ds : (forall j d, from_end ds j = Some d -> 0 <= d) -> Forall (fun d => 0 <= d) ds.
Proof.
  intros H. apply Forall_forall. intros d Hd. apply in_rev in Hd. apply In_znth in Hd. destruct Hd as (j & Hj). exact (H j d Hj).
Qed.
Lemma common_shape_ok {A} (rs : list (val A)) : Forall proper_result rs -> common rs (common_shape rs) /\ Forall (fun d => 0 <= d) (common_shape rs).
Proof.
  intros P. assert (C : common rs (common_shape rs)).
  { unfold common_shape. enough (G : forall pre cs, common pre cs -> common (pre ++ rs) (fold_left (fun c v => match v with Arr a => common_step c (dims a) | _ => c end) rs cs)).
    { apply (G [] []). split; [intros b j d []|]. intros j c H. unfold from_end in H. apply znth_some_range in H. cbn in H. lia. }
    induction P as [|v rs Pv P IH]; intros pre cs C; [rewrite app_nil_r; exact C|]. cbn [fold_left].
    replace (pre ++ v :: rs) with ((pre ++ [v]) ++ rs) by (rewrite <- app_assoc; reflexivity). apply IH. destruct C as [C1 C2]. destruct v as [x| |a].
    - split; [intros b j d H; apply in_app_or in H; destruct H as [H|[H|[]]]; [exact (C1 b j d H)|discriminate]|].
      intros j c H. destruct (C2 j c H) as (b & I & E). exists b. split; [apply in_or_app; left; exact I|exact E].
    - destruct Pv.
    - destruct Pv as (_ & NN & _). split.
      + intros b j d H E. rewrite from_end_step by exact NN. apply in_app_or in H. destruct H as [H|[H|[]]].
        * destruct (C1 b j d H E) as (c & -> & L). destruct (from_end (dims a) j) as [y|]; eexists; (split; [reflexivity|lia]).
        * injection H as ->. rewrite E. destruct (from_end cs j); eexists; (split; [reflexivity|lia]).
      + intros j c H. rewrite from_end_step in H by exact NN. destruct (from_end cs j) as [x|] eqn:Ex, (from_end (dims a) j) as [y|] eqn:Ey; try discriminate; injection H as <-.
        * destruct (Z.max_spec x y) as [[_ ->]|[_ ->]].
          -- exists a. split; [apply in_or_app; right; left; reflexivity|exact Ey].
          -- destruct (C2 j x Ex) as (b & I & E). exists b. split; [apply in_or_app; left; exact I|exact E].
        * destruct (C2 j x Ex) as (b & I & E). exists b. split; [apply in_or_app; left; exact I|exact E].
        * exists a. split; [apply in_or_app; right; left; reflexivity|exact Ey]. }
  split; [exact C|]. apply from_end_nonneg. intros j d H. destruct C as [_ C2]. destruct (C2 j d H) as (b & I & E).
  rewrite Forall_forall in P. destruct (P _ I) as (_ & NN & _). unfold from_end in E. apply znth_In in E. apply in_rev in E. rewrite Forall_forall in NN. exact (NN d E).
Qed.
(* a common shape is at least as long as each shape *)
Lemma common_longer {A} (rs : list (val A)) cs b : common rs cs -> In (Arr b) rs -> zlen (dims b) <= zlen cs.
Proof.
  intros [C _] I. destruct (Z.leb_spec (zlen (dims b)) 0) as [L|L]; [pose proof (zlen_nonneg cs); lia|].
  destruct (znth_in_range (rev (dims b)) (zlen (dims b) - 1)) as (d & E); [rewrite zlen_rev; lia|].
  destruct (C b _ d I E) as (c & H & _). unfold from_end in H. apply znth_some_range in H. rewrite zlen_rev in H. lia.
Qed.

Lemma size_ones d ds : size (repeat 1 d ++ ds) = size ds.
Proof. induction d as [|d IH]; [reflexivity|]. cbn [repeat app size]. rewrite IH. lia. Qed.
Lemma inb_ones d ds lead rest : length lead = d -> (inb (repeat 1 d ++ ds) (lead ++ rest) <-> Forall (eq 0) lead /\ inb ds rest).
Proof.
  revert lead. induction d as [|d IH]; intros lead L; destruct lead as [|x lead]; try discriminate; cbn [repeat app].
  - split; [intros H; split; [constructor|exact H]|intros [_ H]; exact H].
  - injection L as L. split.
    + intros H. inversion H as [|? ? ? ? H1 H2]; subst. apply IH in H2; [|reflexivity]. destruct H2. split; [constructor; [lia|assumption]|assumption].
    + intros [H1 H2]. inversion H1; subst. constructor; [lia|]. apply IH; [reflexivity|]. split; assumption.
Qed.
Lemma pos_ones d ds lead rest : length lead = d -> Forall (eq 0) lead -> pos (repeat 1 d ++ ds) (lead ++ rest) = pos ds rest.
Proof.
  revert lead. induction d as [|d IH]; intros lead L F; destruct lead as [|x lead]; try discriminate; [reflexivity|]. injection L as L. inversion F; subst. cbn [repeat app pos].
  rewrite IH by (reflexivity || assumption). lia.
Qed.
Lemma shifted_nonneg : forall ds cs idx, Forall (fun c => 0 <= c) cs -> length ds = length cs -> length idx = length cs -> shifted ds cs idx = idx.
Proof.
  induction ds as [|d ds IH]; intros [|c cs] [|i idx] F L1 L2; try discriminate; [reflexivity|]. inversion F; subst. cbn [shifted]. f_equal; [unfold start; replace (c <? 0) with false by lia; lia|].
  apply IH; [assumption|injection L1; auto|injection L2; auto].
Qed.
Lemma map_abs_nonneg cs : Forall (fun c => 0 <= c) cs -> map Z.abs cs = cs.
Proof. induction 1 as [|c cs H _ IH]; [reflexivity|]. cbn [map]. rewrite IH. f_equal. lia. Qed.
Lemma conform_ok {A} (zero : A) cs v : Forall (fun d => 0 <= d) cs -> proper_result v -> (forall b, v = Arr b -> zlen (dims b) <= zlen cs) ->
  exists l, conform zero cs v = Ok l /\ conformed zero cs v l.
Proof.
  intros NN P LB. destruct v as [x| |b].
  - unfold conform. destruct (0 <? zlen cs) eqn:E.
    + assert (NE : cs <> []) by (intros ->; cbn in E; lia). rewrite Prod_size by exact NE. pose proof (size_nonneg _ NN). replace (size cs <? 0) with false by lia.
      eexists. split; [reflexivity|]. split; [rewrite zlen_repeat; lia|]. intros y H'. apply repeat_spec in H'. exact H'.
    + assert (cs = []) as -> by (destruct cs; [reflexivity|rewrite zlen_cons in E; pose proof (zlen_nonneg cs); lia]).
      eexists. split; [reflexivity|]. split; [reflexivity|]. intros y [<-|[]]. reflexivity.
  - destruct P.
  - cbn [proper_result] in P. specialize (LB b eq_refl). unfold conform. set (d := (length cs - length (dims b))%nat). set (sh := repeat 1 d ++ dims b).
    pose proof P as (NEb & NNb & Lb).
    assert (Ls : length sh = length cs) by (unfold sh; rewrite app_length, repeat_length; unfold d, zlen in *; lia).
    assert (Wb : wf (mkArr sh (elems b))).
    { split; [unfold sh; cbn [dims]; destruct (repeat 1 d); [exact NEb|discriminate]|]. cbn [dims elems]. split; [|unfold sh; rewrite size_ones; exact Lb].
      unfold sh. apply Forall_app. split; [|exact NNb]. apply Forall_forall. intros y Hy. apply repeat_spec in Hy. lia. }
    assert (ER : Reshape b sh = Ok (mkArr sh (elems b))).
    { destruct (elems b) as [|x l] eqn:E.
      - unfold Reshape. destruct Wb as (H1 & H2 & H3). cbn [dims elems] in *. rewrite Prod_size by exact H1. rewrite <- H3. rewrite E. reflexivity.
      - change sh with (dims (mkArr sh (x :: l))) at 1. apply (Reshape_self (mkArr sh (x :: l)) b Wb); [discriminate|exact E]. }
    rewrite ER. cbn [obind]. destruct (list_eqb cs sh) eqn:Eq.
    + apply list_eqb_eq in Eq. exists (elems b). split; [reflexivity|]. split; [rewrite Eq; unfold sh; rewrite size_ones; exact Lb|].
      intros lead rest Lr I. assert (LL : length lead = d). { apply inb_length in I. rewrite app_length in I. unfold d. lia. } rewrite Eq in I |- *. unfold sh in I.
      apply inb_ones in I; [|exact LL]. split; [intros _; unfold sh; rewrite pos_ones by (exact LL || apply I); reflexivity|]. intros N. destruct (N I).
    + assert (EX : Take zero cs (mkArr sh (elems b)) None = Take zero cs (mkArr sh (elems b)) (Some (zseq (zlen cs)))) by reflexivity. rewrite EX.
      destruct (Take_ok zero cs (mkArr sh (elems b)) (zseq (zlen cs)) cs Wb) as (r & Er & Wr & Dr & Hr).
      { cbn [dims]. replace (zlen sh) with (zlen cs) by (unfold zlen; lia). apply axis_perm_zseq. apply zlen_nonneg. }
      { split; [rewrite zlen_zseq; pose proof (zlen_nonneg cs); lia|]. split; [rewrite zlen_zseq; pose proof (zlen_nonneg cs); lia|].
        intros i k n Hk Hn. pose proof (znth_some_range _ _ _ Hn) as Hi. rewrite znth_zseq in Hk by lia. injection Hk as <-. exact Hn. }
      rewrite Er. cbn [omap]. exists (elems r). split; [reflexivity|]. rewrite map_abs_nonneg in Dr, Hr by exact NN.
      split; [destruct Wr as (_ & _ & Hl); rewrite Hl, Dr; reflexivity|].
      intros lead rest Lr I. specialize (Hr _ I). cbv zeta in Hr. cbn [dims] in Hr.
      assert (LL : length lead = d). { apply inb_length in I. rewrite app_length in I. unfold d. lia. }
      rewrite shifted_nonneg in Hr by (exact NN || exact Ls || (apply inb_length in I; lia)).
      unfold elem in Hr at 1 3. rewrite Dr in Hr. destruct Hr as [H1 H2].
      assert (IO := inb_ones d (dims b) lead rest LL). fold sh in IO. split.
      * intros X. rewrite H1 by (apply IO; exact X). unfold elem. cbn [dims elems]. unfold sh. rewrite pos_ones by (exact LL || apply X). reflexivity.
      * intros X. apply H2. intros Y. apply X, IO, Y.
Qed.
Lemma assemble_ok {A} (zero : A) frame results : frame <> [] -> Forall (fun d => 0 <= d) frame -> zlen results = size frame -> Forall proper_result results ->
  exists cs ls, common results cs /\ Forall2 (conformed zero cs) results ls /\ assemble zero frame results = Ok (Arr (mkArr (frame ++ cs) (concat ls))).
Proof.
  intros NE NN Ln P. destruct (common_shape_ok results P) as [C CN]. exists (common_shape results).
  assert (X : exists ls, mapM (conform zero (common_shape results)) results = Ok ls /\ Forall2 (conformed zero (common_shape results)) results ls).
  { assert (Y : forall v, In v results -> exists l, conform zero (common_shape results) v = Ok l /\ conformed zero (common_shape results) v l).
    { intros v I. apply conform_ok; [exact CN|rewrite Forall_forall in P; exact (P v I)|]. intros b ->. exact (common_longer _ _ _ C I). }
    revert Y. generalize (common_shape results). intros cs Y. clear - Y. induction results as [|v rs IH]; [exists []; split; [reflexivity|constructor]|].
    destruct (Y v (or_introl eq_refl)) as (l & E & K). destruct (IH (fun w I => Y w (or_intror I))) as (ls & E2 & K2).
    exists (l :: ls). cbn [mapM]. rewrite E. cbn [obind]. rewrite E2. split; [reflexivity|constructor; assumption]. }
  destruct X as (ls & E & K). exists ls. split; [exact C|]. split; [exact K|]. unfold assemble. cbv zeta. rewrite E. cbn [obind].
  assert (NE2 : frame ++ common_shape results <> []) by (destruct frame; [congruence|discriminate]).
  rewrite Prod_size by exact NE2. rewrite size_app. pose proof (size_nonneg _ CN) as H1. pose proof (size_nonneg _ NN) as H2.
  replace (size frame * size (common_shape results) <? 0) with false by nia.
  destruct (common_shape results) as [|c0 cr] eqn:Ec.
  - cbn [size]. rewrite Z.mul_1_r, Ln, Z.eqb_refl. reflexivity.
  - rewrite <- Ec in *. rewrite Prod_size by (rewrite Ec; discriminate).
    replace (mapM (fun c => mapM (zat c) (zseq (size (common_shape results)))) ls) with (Ok ls); [reflexivity|]. symmetry.
    clear - K. revert K. generalize (common_shape results). intros cs K. induction K as [|v l rs ls [L _] _ IH]; [reflexivity|]. cbn [mapM]. rewrite <- L at 1. rewrite mapM_zat_self. cbn [obind]. rewrite IH. reflexivity.
Qed.
