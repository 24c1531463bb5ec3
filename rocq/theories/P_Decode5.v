(* P_Decode5.v -- decode with a single radix or digit that is extended. *)
From Coq Require Import Lia.
From Verif Require Import Base M_Array S_Array P_Array M_Structural S_Structural S_Reduce P_Reduce P_Comma Eff M_Operators S_Operators P_Operators Prop_Operators M_Decode S_Decode P_Decode P_Decode2 P_Decode3 P_Decode4.
Open Scope Z_scope.

Lemma inb_zupd : forall ds idx k n i, inb (zupd ds k n) idx -> (forall d, znth ds k = Some d -> 0 <= i < d) -> inb ds (zupd idx k i).
Proof.
  intros ds idx k n i H Hi. apply Forall2_from_znth.
  - apply inb_zlen in H. rewrite !zlen_zupd in *. exact H.
  - intros j d x Hd Hx. destruct (Z.eq_dec j k) as [->|Hn].
    + pose proof (znth_some_range _ _ _ Hx). rewrite zlen_zupd in *. rewrite znth_zupd_same in Hx by lia. inversion Hx; subst. auto.
    + rewrite znth_zupd_other in Hx by lia. eapply (Forall2_znth _ _ _ H j d x); [|exact Hx]. rewrite znth_zupd_other by lia. exact Hd.
Qed.
Lemma extend_ok {A} (a : arr A) k n : wf a -> 0 <= k < zlen (dims a) -> 0 <= n -> (forall d, znth (dims a) k = Some d -> 0 < d) ->
  exists b, extendAxis a k n = Ok b /\ is_array (zupd (dims a) k n) (fun idx => elem a (zupd idx k 0)) b.
Proof.
  intros Hw Hk Hn Hd. unfold extendAxis. unfold NewIdxConverter. destruct (dims a) as [|d0 dr] eqn:Ed; [change (zlen (@nil Z)) with 0 in Hk; lia|]. rewrite <- Ed in *. clear d0 dr Ed. cbn [obind].
  apply fill_is_array.
  - intros X. apply (f_equal zlen) in X. rewrite zlen_zupd in X. change (zlen (@nil Z)) with 0 in X. lia.
  - apply Forall_znth. intros i x Hx. destruct (Z.eq_dec i k) as [->|Hne]; [rewrite znth_zupd_same in Hx by lia; inversion Hx; subst; lia|].
    rewrite znth_zupd_other in Hx by lia. destruct Hw as (_ & W & _). apply (proj1 (Forall_znth _ _) W i x Hx).
  - intros idx HI. assert (HI' : inb (dims a) (zupd idx k 0)) by (eapply inb_zupd; [exact HI|intros d X; apply Hd in X; lia]).
    destruct (elem_some a _ Hw HI') as (x & Hx). exists x. split; [apply At_elem; assumption|exact Hx].
Qed.

Lemma zupd_cons_0 {A} (x y : A) l : zupd (x :: l) 0 y = y :: l.
Proof. reflexivity. Qed.
Lemma zupd_snoc (lr : list Z) m n : zupd (lr ++ [m]) (zlen lr) n = lr ++ [n].
Proof.
  apply znth_ext; [rewrite zlen_zupd; zla; reflexivity|]. intros i Hi. rewrite zlen_zupd, zlen_app in Hi. change (zlen [m]) with 1 in Hi. destruct (Z.eq_dec i (zlen lr)) as [->|Hn].
  - rewrite znth_zupd_same by (rewrite zlen_app; change (zlen [m]) with 1; pose proof (zlen_nonneg lr); lia). rewrite znth_app_r by lia. rewrite Z.sub_diag. reflexivity.
  - rewrite znth_zupd_other by lia. rewrite !znth_app_l by lia. reflexivity.
Qed.
Lemma znth_repeat {A} (x : A) n k : 0 <= k < n -> znth (repeat x (Z.to_nat n)) k = Some x.
Proof.
  intros H. unfold znth. replace (k <? 0) with false by lia. rewrite nth_error_repeat by lia. reflexivity.
Qed.
Lemma ext_last {A} (a b : arr A) lr n : wf a -> dims a = lr ++ [1] -> 0 <= n -> is_array (lr ++ [n]) (fun idx => elem a (zupd idx (zlen lr) 0)) b ->
  forall I, inb lr I -> exists x, line a (zlen lr) 1 I = [x] /\ line b (zlen lr) n I = repeat x (Z.to_nat n).
Proof.
  intros Hw Hd Hn (Hwb & Hdb & Hb) I HI. destruct (line_last_ok a lr 1 I Hw Hd HI) as (L1 & L2).
  destruct (line a (zlen lr) 1 I) as [|x [|y l]] eqn:E; [change (zlen (@nil A)) with 0 in L1; lia| |exfalso; rewrite !zlen_cons in L1; pose proof (zlen_nonneg l); lia].
  exists x. split; [reflexivity|]. specialize (L2 0 ltac:(lia)). rewrite znth_cons_0 in L2.
  destruct (line_ok b (zlen lr) n I Hwb) as (B1 & B2); [rewrite Hdb, znth_app_r by lia; rewrite Z.sub_diag; reflexivity|rewrite Hdb, del_snoc; exact HI|].
  apply znth_ext; [rewrite B1, zlen_repeat; lia|]. intros i Hi. rewrite B1 in Hi. rewrite B2 by exact Hi. rewrite znth_repeat by lia.
  rewrite ins_last by (apply inb_zlen; exact HI). rewrite Hb.
  - replace (zupd (I ++ [i]) (zlen lr) 0) with (I ++ [0]) by (rewrite (inb_zlen _ _ HI), zupd_snoc; reflexivity).
    unfold elem. rewrite Hd, pos_app' by (eapply Forall2_length; exact HI). cbn [size pos]. rewrite L2. f_equal; lia.
  - apply inb_app; [exact HI|]. constructor; [lia|constructor].
Qed.
Lemma ext_first {A} (a b : arr A) rr n : wf a -> dims a = 1 :: rr -> 0 <= n -> is_array (n :: rr) (fun idx => elem a (zupd idx 0 0)) b ->
  forall J, inb rr J -> exists x, line a 0 1 J = [x] /\ line b 0 n J = repeat x (Z.to_nat n).
Proof.
  intros Hw Hd Hn (Hwb & Hdb & Hb) J HJ.
  destruct (line_ok a 0 1 J Hw) as (L1 & L2); [rewrite Hd; apply znth_cons_0|rewrite Hd; exact HJ|].
  destruct (line a 0 1 J) as [|x [|y l]] eqn:E; [change (zlen (@nil A)) with 0 in L1; lia| |exfalso; rewrite !zlen_cons in L1; pose proof (zlen_nonneg l); lia].
  exists x. split; [reflexivity|]. specialize (L2 0 ltac:(lia)). rewrite znth_cons_0 in L2.
  destruct (line_ok b 0 n J Hwb) as (B1 & B2); [rewrite Hdb; apply znth_cons_0|rewrite Hdb; exact HJ|].
  apply znth_ext; [rewrite B1, zlen_repeat; lia|]. intros i Hi. rewrite B1 in Hi. rewrite B2 by exact Hi. rewrite znth_repeat by lia.
  rewrite ins_first in *. rewrite Hb by (constructor; [lia|exact HJ]). rewrite zupd_cons_0. symmetry. exact L2.
Qed.
Section P.
  Context {V : Type} (ops : arith V) (den : V -> Z -> Prop) (B : Z) (E : exact_arith ops den B).
  Local Notation dens := (Forall2 den).
  Lemma ext_stands (a : arr V) (z : arr Z) k n b c : stands den (Arr a) z -> 0 <= k < zlen (dims z) -> (forall d, znth (dims z) k = Some d -> 0 < d) ->
    is_array (zupd (dims a) k n) (fun idx => elem a (zupd idx k 0)) b -> is_array (zupd (dims z) k n) (fun idx => elem z (zupd idx k 0)) c -> stands den (Arr b) c.
  Proof.
    intros (Hw & Hd & HE) Hk Hpos (Wb & Db & Hb) (Wc & Dc & Hc). split; [exact Wb|]. rewrite Db, Dc, Hd. split; [reflexivity|].
    assert (HZ : zlen (elems b) = zlen (elems c)) by (destruct Wb as (_ & _ & ->), Wc as (_ & _ & ->); rewrite Db, Dc, Hd; reflexivity).
    apply Forall2_from_znth; [exact HZ|]. intros i x y Hx Hy. pose proof (znth_some_range _ _ _ Hx) as Hi.
    destruct (ic_indexes_spec (dims b) i) as (idx & _ & HI & Hp); [apply Wb|destruct Wb as (_ & _ & W); lia|].
    assert (Xb : elem b idx = Some x) by (unfold elem; rewrite Hp; exact Hx).
    assert (Xc : elem c idx = Some y) by (unfold elem; rewrite Dc, <- Hd, <- Db, Hp; exact Hy).
    rewrite Hb in Xb by (rewrite <- Db; exact HI). rewrite Hc in Xc by (rewrite <- Hd, <- Db; exact HI). unfold elem in Xb, Xc. rewrite Hd in Xb.
    eapply Forall2_znth; [exact HE|exact Xb|exact Xc].
  Qed.
  Lemma stands_promote v z : stands den v z -> stands den (Arr (toArray v)) (promote z).
  Proof.
    destruct v as [x| |a]; cbn [stands]; [|tauto|].
    - intros (N & Hx & ->). cbn. split; [|split; [reflexivity|constructor; [exact Hx|constructor]]]. split; [discriminate|]. split; [constructor; [lia|constructor]|reflexivity].
    - intros (Hw & Hd & HE). unfold promote. destruct (dims z) eqn:Ez; [exfalso; apply Hw; exact Hd|]. cbn [toArray asArr]. rewrite <- Ez in *. auto.
  Qed.
  Lemma decode_toArray L R : decode ops L R = decode ops (Arr (toArray L)) (Arr (toArray R)).
  Proof. destruct L, R; reflexivity. Qed.

  Lemma decode_ok L R la ra lr rr m k n : stands den L la -> stands den R ra -> dims (promote la) = lr ++ [m] -> dims (promote ra) = k :: rr ->
    (m = n /\ k = n) \/ (m = 1 /\ k = n) \/ (m = n /\ k = 1) -> 0 < n -> 1 <= B -> (exists J, inb rr J) ->
    (forall I J, inb lr I -> inb rr J -> bounded B (fit n (line (promote la) (zlen lr) m I)) (fit n (line (promote ra) 0 k J))) ->
    exists w z, decode ops L R = Ok w /\ stands den w z /\ dims z = lr ++ rr /\
      forall I J, inb lr I -> inb rr J -> elem z (I ++ J) = Some (value (fit n (line (promote la) (zlen lr) m I)) (fit n (line (promote ra) 0 k J))).
  Proof using E.
    intros SL SR Hla Hra Hmk Hn HB1 HJ HB. apply stands_promote in SL, SR. rewrite decode_toArray. set (al := toArray L) in *. set (ar := toArray R) in *. clearbody al ar. clear L R.
    set (pl := promote la) in *. set (pr := promote ra) in *. clearbody pl pr. clear la ra.
    assert (Lm : forall I, inb lr I -> zlen (line pl (zlen lr) m I) = m).
    { intros I HI. destruct SL as (W & D & HE). rewrite <- (Forall2_zlen _ _ _ (dens_line den al pl (zlen lr) m I D HE)). apply (line_last_ok al lr m I W); [rewrite D; exact Hla|exact HI]. }
    assert (Rk : forall J, inb rr J -> zlen (line pr 0 k J) = k).
    { intros J HJ'. destruct SR as (W & D & HE). rewrite <- (Forall2_zlen _ _ _ (dens_line den ar pr 0 k J D HE)). apply (line_ok ar 0 k J W); rewrite D, Hra; [apply znth_cons_0|exact HJ']. }
    assert (Fn : forall l, zlen l = n -> fit n l = l).
    { intros [|x [|y l]] Hl; try reflexivity. change (zlen [x]) with 1 in Hl. subst n. reflexivity. }
    assert (Wl : wf pl). { destruct SL as (W & D & HE). split; [rewrite <- D; apply W|]. split; [rewrite <- D; apply W|]. rewrite <- D, <- (Forall2_zlen _ _ _ HE). apply W. }
    assert (Wr : wf pr). { destruct SR as (W & D & HE). split; [rewrite <- D; apply W|]. split; [rewrite <- D; apply W|]. rewrite <- D, <- (Forall2_zlen _ _ _ HE). apply W. }
    pose proof SL as (Wal & Dal & _). pose proof SR as (War & Dar & _).
    destruct (Z.eq_dec m k) as [Hmk'|Hne].
    - assert (m = n /\ k = n) as (-> & ->) by lia. destruct (decode_arr_ok ops den B E al ar pl pr lr rr n SL SR Hla Hra Hn HB1) as (w & z & H1 & H2 & H3 & H4).
      + intros I J HI HJ'. specialize (HB I J HI HJ'). rewrite !Fn in HB by auto. exact HB.
      + right. exact HJ.
      + exists w, z. split; [exact H1|]. split; [exact H2|]. split; [exact H3|]. intros I J HI HJ'. rewrite !Fn by auto. auto.
    - destruct Hmk as [X|[(-> & ->)|(-> & ->)]]; [lia| |].
      + assert (Z1 : zlen (dims pl) = zlen lr + 1) by (rewrite Hla; zla; reflexivity). pose proof (zlen_nonneg lr) as Z0.
        assert (Hp : forall d, znth (dims pl) (zlen lr) = Some d -> 0 < d) by (intros d; rewrite Hla, znth_app_r by lia; rewrite Z.sub_diag, znth_cons_0; intros X; inversion X; lia).
        destruct (extend_ok al (zlen lr) n Wal) as (b & Eb & Ib); [rewrite Dal; lia|lia|rewrite Dal; exact Hp|].
        destruct (extend_ok pl (zlen lr) n Wl) as (c & Ec & Ic); [lia|lia|exact Hp|].
        assert (Sb : stands den (Arr b) c) by (eapply ext_stands; [exact SL| |exact Hp|exact Ib|exact Ic]; lia).
        assert (Ic' := Ic). rewrite Hla, zupd_snoc in Ic'. pose proof (ext_last pl c lr n Wl Hla ltac:(lia) Ic') as HL.
        assert (HD : decode ops (Arr al) (Arr ar) = decode ops (Arr b) (Arr ar)).
        { unfold decode. cbn [toArray asArr]. rewrite Dal, Dar, Hla, Hra. rewrite zlen_app. change (zlen [1]) with 1. replace (zlen lr + 1 - 1) with (zlen lr) by lia.
          rewrite zat_app by reflexivity. cbn [obind]. rewrite zat_0. cbn [obind]. replace (1 =? n) with false by lia. change (1 =? 1) with true. cbv iota. rewrite Eb. cbn [obind].
          destruct Ib as (_ & Db & _). rewrite Dal, Hla, zupd_snoc in Db. rewrite Db. rewrite zlen_app. change (zlen [n]) with 1. replace (zlen lr + 1 - 1) with (zlen lr) by lia.
          rewrite zat_app by reflexivity. cbn [obind]. rewrite Z.eqb_refl. cbn [obind]. rewrite Db, zlen_app. change (zlen [n]) with 1. replace (zlen lr + 1 - 1) with (zlen lr) by lia. rewrite zat_app by reflexivity. reflexivity. }
        rewrite HD. destruct (decode_arr_ok ops den B E b ar c pr lr rr n Sb SR ltac:(apply Ic') Hra Hn HB1) as (w & z & H1 & H2 & H3 & H4).
        * intros I J HI HJ'. specialize (HB I J HI HJ'). destruct (HL I HI) as (x & X1 & X2). rewrite X1 in HB. rewrite X2. cbn [fit] in HB. rewrite (Fn (line pr 0 n J)) in HB by auto. exact HB.
        * right. exact HJ.
        * exists w, z. split; [exact H1|]. split; [exact H2|]. split; [exact H3|]. intros I J HI HJ'. destruct (HL I HI) as (x & X1 & X2). rewrite X1. cbn [fit]. rewrite <- X2. rewrite Fn by auto. auto.
      + assert (Hp : forall d, znth (dims pr) 0 = Some d -> 0 < d) by (intros d; rewrite Hra, znth_cons_0; intros X; inversion X; lia).
        assert (Z1 : zlen (dims pr) = 1 + zlen rr) by (rewrite Hra; zl; reflexivity). pose proof (zlen_nonneg rr) as Z0.
        destruct (extend_ok ar 0 n War) as (b & Eb & Ib); [rewrite Dar; lia|lia|rewrite Dar; exact Hp|].
        destruct (extend_ok pr 0 n Wr) as (c & Ec & Ic); [lia|lia|exact Hp|].
        assert (Sb : stands den (Arr b) c) by (eapply ext_stands; [exact SR| |exact Hp|exact Ib|exact Ic]; lia).
        assert (Ic' := Ic). rewrite Hra, zupd_cons_0 in Ic'. pose proof (ext_first pr c rr n Wr Hra ltac:(lia) Ic') as HL.
        assert (HD : decode ops (Arr al) (Arr ar) = decode ops (Arr al) (Arr b)).
        { unfold decode. cbn [toArray asArr]. rewrite Dal, Dar, Hla, Hra. rewrite zlen_app. change (zlen [n]) with 1. replace (zlen lr + 1 - 1) with (zlen lr) by lia.
          rewrite zat_app by reflexivity. cbn [obind]. rewrite zat_0. cbn [obind]. replace (n =? 1) with false by lia. change (1 =? 1) with true. cbv iota. rewrite Eb. cbn [obind].
          destruct Ib as (_ & Db & _). rewrite Dar, Hra, zupd_cons_0 in Db. rewrite Db. rewrite zat_0. cbn [obind]. rewrite Z.eqb_refl. cbn [obind]. reflexivity. }
        rewrite HD. destruct (decode_arr_ok ops den B E al b pl c lr rr n SL Sb Hla ltac:(apply Ic') Hn HB1) as (w & z & H1 & H2 & H3 & H4).
        * intros I J HI HJ'. specialize (HB I J HI HJ'). destruct (HL J HJ') as (x & X1 & X2). rewrite X1 in HB. rewrite X2. cbn [fit] in HB. rewrite (Fn (line pl (zlen lr) n I)) in HB by auto. exact HB.
        * right. exact HJ.
        * exists w, z. split; [exact H1|]. split; [exact H2|]. split; [exact H3|]. intros I J HI HJ'. destruct (HL J HJ') as (x & X1 & X2). rewrite X1. cbn [fit]. rewrite <- X2. rewrite Fn by auto. auto.
  Qed.
End P.
