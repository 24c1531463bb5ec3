(* P_Decode3.v -- encode and decode of arrays. *)
From Coq Require Import Lia.
From Verif Require Import Base M_Array S_Array P_Array M_Structural S_Structural S_Reduce P_Reduce P_Comma Eff M_Operators S_Operators P_Operators M_Decode S_Decode P_Decode P_Decode2.
Open Scope Z_scope.

Lemma pos_app' a : forall b I J, length a = length I -> pos (a ++ b) (I ++ J) = pos a I * size b + pos b J.
Proof.
  induction a as [|d a IH]; intros b [|i I] J H; try discriminate; [reflexivity|].
  cbn [app pos]. rewrite IH by (cbn in H; lia). rewrite size_app. ring.
Qed.
Lemma inb_app a b I J : inb a I -> inb b J -> inb (a ++ b) (I ++ J).
Proof. intros. apply Forall2_app; assumption. Qed.
Lemma inb_split a b idx : inb (a ++ b) idx -> exists I J, idx = I ++ J /\ inb a I /\ inb b J.
Proof. intros H. apply Forall2_app_inv_l in H. destruct H as (I & J & H1 & H2 & ->). exists I, J. auto. Qed.

Section P.
  Context {V : Type} (ops : arith V) (den : V -> Z -> Prop) (B : Z) (E : exact_arith ops den B).
  Local Notation dens := (Forall2 den).

  Lemma dens_znth (a : list V) (b : list Z) i : dens a b -> match znth a i, znth b i with Some x, Some z => den x z | None, None => True | _, _ => False end.
  Proof.
    intros H. destruct (znth a i) as [x|] eqn:X, (znth b i) as [z|] eqn:Y; [eapply Forall2_znth; eassumption|..|exact Logic.I].
    - apply znth_some_range in X. apply znth_none in Y. rewrite (Forall2_zlen _ _ _ H) in X. lia.
    - apply znth_some_range in Y. apply znth_none in X. rewrite (Forall2_zlen _ _ _ H) in X. lia.
  Qed.
  Lemma dens_line (a : arr V) (b : arr Z) k n j : dims a = dims b -> dens (elems a) (elems b) -> dens (line a k n j) (line b k n j).
  Proof.
    intros Hd H. unfold line. induction (zseq n) as [|i l IH]; cbn [flat_map]; [constructor|]. apply Forall2_app; [|exact IH].
    unfold elem. rewrite Hd. pose proof (dens_znth _ _ (pos (dims b) (ins k i j)) H) as X.
    destruct (znth (elems a) _), (znth (elems b) _); try contradiction; [constructor; [exact X|constructor]|constructor].
  Qed.
  Lemma mapM_line (a : arr V) n lr I : wf a -> dims a = n :: lr -> inb lr I ->
    mapM (fun k => At a (k * size lr + pos lr I)) (zseq n) = Ok (line a 0 n I).
  Proof.
    intros Hw Hd HI. rewrite (mapM_ok_map _ (fun k => match At a (k * size lr + pos lr I) with Ok x => x | _ => match elems a with x :: _ => x | [] => a_int ops 0 end end)).
    - f_equal. destruct (line_ok a 0 n I Hw) as (L1 & L2); [rewrite Hd; apply znth_cons_0|rewrite Hd; exact HI|].
      apply znth_ext; [zla; pose proof (zlen_nonneg (line a 0 n I)); lia|]. intros i Hi. zlh Hi. rewrite znth_map, znth_zseq by lia. cbn [option_map]. rewrite L2 by lia.
      unfold elem. rewrite ins_first, Hd. cbn [pos]. unfold At, zat. destruct (znth (elems a) (i * size lr + pos lr I)) eqn:X; [reflexivity|].
      exfalso. apply znth_none in X. destruct Hw as (_ & Hnn & Hl). rewrite Hl, Hd in X. cbn [size] in X. pose proof (pos_range _ _ HI). nia.
    - intros k Hk. apply In_zseq in Hk. unfold At. destruct (znth_in_range (elems a) (k * size lr + pos lr I)) as (x & Hx).
      + destruct Hw as (_ & Hnn & Hl). rewrite Hl, Hd. cbn [size]. pose proof (pos_range _ _ HI). nia.
      + unfold zat. rewrite Hx. reflexivity.
  Qed.

  (* ---------- encode ---------- *)
  Lemma encodeArray_ok (nil : V) (al : arr V) (R : val V) (la ra : arr Z) n lr :
    stands den (Arr al) la -> stands den R ra -> dims la = n :: lr -> 0 < n ->
    (forall I, inb lr I -> radix (line la 0 n I) /\ Z.abs (hd 0 (line la 0 n I)) <= B /\ product (tl (line la 0 n I)) <= B /\
       forall N, In N (elems ra) -> Z.abs N + product (tl (line la 0 n I)) <= B) ->
    exists res z, encodeArray ops nil al R = Ok res /\ stands den (Arr res) z /\ dims z = dims la ++ dims ra /\
      forall d I J N, inb (dims la) (d :: I) -> inb (dims ra) J -> elem ra J = Some N -> elem z (d :: I ++ J) = znth (digits (line la 0 n I) N) d.
  Proof using E.
    intros (Hwl & Hdl & Hel) HR Hn Hn0 HB. rewrite Hn in Hdl.
    set (rr := dims ra).
    assert (Hsh : shapeOf R = rr).
    { destruct R as [x| |b]; cbn in *; [destruct HR as (N & _ & Er); unfold rr; rewrite Er; reflexivity|contradiction|tauto]. }
    assert (Hrn : Forall (fun d => 0 <= d) rr).
    { destruct R as [x| |b]; cbn in *; [destruct HR as (N & _ & Er); unfold rr; rewrite Er; constructor|contradiction|]. destruct HR as ((_ & W & _) & Hd & _). rewrite <- Hsh. exact W. }
    assert (Hrl : zlen (elems ra) = size rr).
    { destruct R as [x| |b]; cbn in *; [destruct HR as (N & _ & Er); unfold rr; rewrite Er; reflexivity|contradiction|]. destruct HR as ((_ & _ & W) & Hd & HE). rewrite <- (Forall2_zlen _ _ _ HE), W, Hd. reflexivity. }
    assert (Hrv : exists rs, match R with Scal r => Ok [r] | _ => if sizeOf R <? 0 then Ok [] else mapM (At (asArr R)) (zseq (sizeOf R)) end = Ok rs /\ dens rs (elems ra)).
    { destruct R as [x| |b]; cbn in HR; [|contradiction|].
      - destruct HR as (N & Dx & Er). exists [x]. split; [reflexivity|]. rewrite Er. constructor; [exact Dx|constructor].
      - destruct HR as (_ & _ & HE). exists (elems b). split; [|exact HE]. unfold sizeOf. cbn [elemsOf asArr]. pose proof (zlen_nonneg (elems b)).
        replace (zlen (elems b) <? 0) with false by lia.
        rewrite (mapM_ok_map _ (fun i => match znth (elems b) i with Some x => x | None => nil end)).
        + f_equal. apply znth_ext; [zla; lia|]. intros i Hi. zlh Hi. rewrite znth_map, znth_zseq by lia. cbn [option_map]. destruct (znth (elems b) i) eqn:X; [reflexivity|]. apply znth_none in X. lia.
        + intros i Hi. apply In_zseq in Hi. unfold At, zat. destruct (znth (elems b) i) eqn:X; [reflexivity|]. apply znth_none in X. lia. }
    destruct Hrv as (rs & Ers & Drs).
    assert (Hlnn : Forall (fun d => 0 <= d) lr) by (destruct Hwl as (_ & W & _); rewrite Hdl in W; inversion W; assumption).
    pose proof (size_nonneg _ Hlnn) as Hls. pose proof (size_nonneg _ Hrn) as Hrs.
    unfold encodeArray. rewrite Hsh, Hdl. rewrite Prod_size by discriminate. change ((n :: lr) ++ rr) with (n :: lr ++ rr). cbn [size skipn]. rewrite size_app.
    replace (if 1 <? zlen (n :: lr) then Prod lr else 1) with (size lr).
    2:{ zl. destruct lr as [|d lr']; [reflexivity|]. zl. pose proof (zlen_nonneg lr'). replace (1 <? 1 + (1 + zlen lr')) with true by lia. symmetry. apply Prod_size. discriminate. }
    replace (if 1 <? zlen (n :: lr ++ rr) then Prod (lr ++ rr) else 1) with (size lr * size rr).
    2:{ rewrite <- size_app. zl. destruct (lr ++ rr) as [|d lr']; [reflexivity|]. zl. pose proof (zlen_nonneg lr'). replace (1 <? 1 + (1 + zlen lr')) with true by lia. symmetry. apply Prod_size. discriminate. }
    replace (n * (size lr * size rr) <? 0) with false by nia. rewrite zat_0. cbn [obind]. replace (n <? 0) with false by lia. rewrite Ers. cbn [obind].
    set (NN := size lr * size rr) in *.
    set (Lc := fun i => flat_map (fun k => match znth (elems la) (k * size lr + i) with Some x => [x] | None => [] end) (zseq n)).
    assert (HLc : forall I, inb lr I -> Lc (pos lr I) = line la 0 n I).
    { intros I HI. unfold Lc, line, elem. apply flat_map_ext. intros k. rewrite ins_first, Hn. reflexivity. }
    set (Col := fun j => match znth (elems ra) (j mod size rr) with Some N => digits (Lc (j / size rr)) N | None => [] end).
    destruct (enc_cols_ok ops den B E Col n NN (size lr) al Lc rs (elems ra)) with (todo := Z.to_nat (size lr)) (i := 0) (st := (repeat nil (Z.to_nat n), repeat nil (Z.to_nat (n * NN))))
      as (st & Est & (D1 & D2 & D3)); auto; try lia.
    - unfold NN. rewrite (Forall2_zlen _ _ _ Drs), Hrl. reflexivity.
    - intros i Hi. destruct (ic_indexes_spec lr i Hlnn Hi) as (I & _ & HI & <-). destruct (HB I HI) as (B1 & B2 & B3 & B4). rewrite (HLc I HI).
      exists (line al 0 n I). split; [apply mapM_line; auto|]. split; [apply dens_line; [rewrite Hdl, Hn; reflexivity|exact Hel]|]. repeat split; auto. apply Forall_forall. exact B4.
    - intros i k N Hi Hk. unfold Col. rewrite (Forall2_zlen _ _ _ Drs), Hrl. pose proof (znth_some_range _ _ _ Hk) as Hkr. rewrite Hrl in Hkr.
      rewrite Z.add_comm, Z.mod_add, Z.mod_small by lia. rewrite Hk. rewrite Z.div_add, Z.div_small by lia. reflexivity.
    - rewrite Z.mul_0_l. split; [cbn [fst]; zla; lia|]. split; [cbn [snd]; zla; nia|]. intros. lia.
    - rewrite Z.mul_0_l in Est. rewrite Est. cbn [obind].
      set (zf := fun q => match znth (Col (q mod NN)) (q / NN) with Some z => z | None => 0 end).
      exists (mkArr (n :: lr ++ rr) (snd st)), (mkArr (n :: lr ++ rr) (map zf (zseq (n * NN)))). split; [reflexivity|].
      assert (HNN : 0 <= NN) by (unfold NN; nia).
      split; [|split; [cbn [dims]; rewrite Hn; reflexivity|]].
      + cbn [stands dims elems]. split.
        * split; [discriminate|]. cbn [dims elems]. split; [constructor; [lia|apply Forall_app; auto]|]. rewrite D2. cbn [size]. rewrite size_app. reflexivity.
        * split; [reflexivity|]. apply Forall2_from_znth; [zla; nia|]. intros q x y Hx Hy. pose proof (znth_some_range _ _ _ Hx) as Hq. rewrite D2 in Hq.
          rewrite znth_map, znth_zseq in Hy by lia. cbn [option_map] in Hy. inversion Hy; subst y. clear Hy.
          assert (0 < NN) by nia. pose proof (Z.div_mod q NN ltac:(lia)) as Dm. pose proof (Z.mod_pos_bound q NN ltac:(lia)) as Hm.
          destruct (D3 (q / NN) (q mod NN)) as (v & z & Hv & Hz & Hden); [split; [apply Z.div_pos; lia|apply Z.div_lt_upper_bound; lia]|lia|].
          unfold zf. rewrite Hz. replace (q / NN * NN + q mod NN) with q in Hv by lia. rewrite Hx in Hv. inversion Hv; subst. exact Hden.
      + intros d I J N Hin HJ HN. rewrite Hn in Hin. assert (HdI : 0 <= d < n /\ inb lr I) by (inversion Hin; auto). destruct HdI as (Hd & HI). fold rr in HJ.
        unfold elem. cbn [dims elems pos]. rewrite pos_app' by (eapply Forall2_length; exact HI). rewrite size_app. fold NN.
        pose proof (pos_range _ _ HI) as RI. pose proof (pos_range _ _ HJ) as RJ.
        assert (RK : 0 <= pos lr I * size rr + pos rr J < NN) by (unfold NN; nia).
        rewrite znth_map, znth_zseq by nia. cbn [option_map]. unfold zf.
        rewrite Z.add_comm, Z.mod_add, Z.div_add, Z.div_small, (Z.mod_small _ NN) by lia. rewrite Z.add_0_l.
        assert (HCol : Col (pos lr I * size rr + pos rr J) = digits (line la 0 n I) N).
        { unfold Col. rewrite Z.add_comm, Z.mod_add, Z.div_add, Z.div_small, Z.mod_small by lia. rewrite Z.add_0_l, HLc by exact HI.
          unfold elem in HN. fold rr in HN. rewrite HN. reflexivity. }
        rewrite HCol. destruct (znth (digits (line la 0 n I) N) d) eqn:X; [reflexivity|]. exfalso. apply znth_none in X. unfold zlen in X. rewrite digits_length in X.
        assert (W : zlen (line la 0 n I) = n).
        { rewrite <- (Forall2_zlen _ _ _ (dens_line al la 0 n I ltac:(rewrite Hdl, Hn; reflexivity) Hel)). destruct (line_ok al 0 n I Hwl) as (L1 & _); [rewrite Hdl; apply znth_cons_0|rewrite Hdl; exact HI|exact L1]. }
        unfold zlen in W. lia.
  Qed.
End P.
