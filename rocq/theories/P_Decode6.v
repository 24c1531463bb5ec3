(* P_Decode6.v -- encode as a whole, and decode after encode. *)
From Coq Require Import Lia.
From Verif Require Import Base M_Array S_Array P_Array M_Structural S_Structural S_Reduce P_Reduce P_Comma Eff M_Operators S_Operators P_Operators Prop_Operators M_Decode S_Decode P_Decode P_Decode2 P_Decode3 P_Decode4 P_Decode5.
Open Scope Z_scope.

Lemma product_pos L : Forall (fun x => 0 < x) L -> 0 < product L.
Proof. induction 1; cbn; [lia|]. fold (product l). nia. Qed.
Lemma product_ge L x : Forall (fun x => 0 < x) L -> In x L -> x <= product L.
Proof.
  induction 1 as [|y l Hy Hl IH]; [intros []|]. intros [->|H]; change (product (?a :: ?b)) with (a * product b); pose proof (product_pos l Hl); [nia|]. specialize (IH H). nia.
Qed.
Lemma representable_vec B L N : representable B L N -> Forall (fun l => Z.abs l <= B /\ Z.abs N + l <= B) L.
Proof.
  intros (R & H1 & H2). destruct L as [|l L]; [constructor|]. cbn [radix hd tl] in R, H1, H2. destruct R as (R1 & R2). constructor; [lia|]. apply Forall_forall. intros x Hx.
  pose proof (product_ge L x R2 Hx). rewrite Forall_forall in R2. specialize (R2 x Hx). lia.
Qed.
Lemma value_digits_radix L N : radix L -> L <> [] -> value L (digits L N) = N mod product L.
Proof.
  destruct L as [|l L]; [congruence|]. intros (R1 & R2) _. destruct (Z.eq_dec l 0) as [->|Hn].
  - cbn [digits value]. rewrite Zmod_0_r. change (product (0 :: L)) with 0. rewrite Zmod_0_r. rewrite value_digits by exact R2. pose proof (product_pos L R2). rewrite (Z.div_mod N (product L)) at 3 by lia. lia.
  - apply value_digits. constructor; [lia|exact R2].
Qed.
Lemma digits_length L N : length (digits L N) = length L.
Proof. induction L; cbn; congruence. Qed.
Lemma digits_unique L : Forall (fun x => 0 < x) L -> forall D, Forall2 (fun l d => 0 <= d < l) L D -> digits L (value L D) = D.
Proof.
  intros HL D H. revert HL. induction H as [|l d L D Hd HD IH]; intros HL; [reflexivity|]. inversion HL; subst. cbn [digits value].
  assert (V : 0 <= value L D < product L).
  { clear - HD H2. induction HD as [|l d L D Hd HD IH]; [cbn; lia|]. inversion H2; subst. specialize (IH H3). cbn [value]. change (product (l :: L)) with (l * product L). nia. }
  replace (d * product L + value L D) with (value L D + d * product L) by lia. rewrite Z.div_add by lia. rewrite (Z.div_small (value L D)) by lia. rewrite Z.add_0_l, Z.mod_small by lia. f_equal.
  rewrite digits_mod by assumption. auto.
Qed.
Lemma value_range L D : Forall2 (fun l d => 0 <= d < l) L D -> 0 <= value L D < product L.
Proof.
  induction 1 as [|l d L D Hd HD IH]; [cbn; lia|]. cbn [value]. change (product (l :: L)) with (l * product L). nia.
Qed.
Lemma digits_in L N : Forall (fun x => 0 < x) L -> Forall2 (fun l d => 0 <= d < l) L (digits L N).
Proof. induction 1; cbn; constructor; auto. apply Z.mod_pos_bound. assumption. Qed.

(* all numbers in the evaluation of the digits are small *)
Lemma bounded_digits_pos B L N : Forall (fun x => 0 < x) L -> product L <= B -> bounded B L (digits L N).
Proof.
  induction 1 as [|l L Hl HL IH]; intros HB; [exact Logic.I|]. cbn [digits bounded]. change (product (l :: L)) with (l * product L) in HB. pose proof (product_pos L HL) as HP.
  assert (HP1 : product L <= B) by nia. pose proof (Z.mod_pos_bound (N / product L) l Hl) as Hm. pose proof (value_range _ _ (digits_in (l :: L) N (Forall_cons _ Hl HL))) as HV. cbn [digits] in HV. change (product (l :: L)) with (l * product L) in HV.
  repeat split; auto; nia.
Qed.
Lemma bounded_digits B L N : radix L -> L <> [] -> product L <= B -> Z.abs N + product (tl L) <= B -> bounded B L (digits L N).
Proof.
  destruct L as [|l L]; [congruence|]. intros (R1 & R2) _ H1 H2. cbn [tl] in H2. destruct (Z.eq_dec l 0) as [->|Hn].
  - pose proof (product_pos L R2) as HP. pose proof (value_digits_radix (0 :: L) N (conj R1 R2) ltac:(discriminate)) as HV. change (product (0 :: L)) with 0 in HV. rewrite Zmod_0_r in HV.
    cbn [digits bounded] in *. rewrite Zmod_0_r in *. pose proof (Z.div_mod N (product L) ltac:(lia)) as D. pose proof (Z.mod_pos_bound N (product L) HP) as Hm.
    assert (Z.abs (N / product L) <= Z.abs N) by (destruct (Z_le_gt_dec 0 N); nia). rewrite HV. repeat split; try lia; try nia. apply bounded_digits_pos; [exact R2|lia].
  - apply bounded_digits_pos; [constructor; [lia|exact R2]|exact H1].
Qed.

Section P.
  Context {V : Type} (ops : arith V) (den : V -> Z -> Prop) (B : Z) (E : exact_arith ops den B).
  Local Notation dens := (Forall2 den).
  Lemma line_vec {A} (l : list A) : line (vec l) 0 (zlen l) [] = l.
  Proof.
    destruct (line_last_ok (vec l) [] (zlen l) []) as (H1 & H2); [split; [discriminate|]; cbn; split; [constructor; [apply zlen_nonneg|constructor]|lia]|reflexivity|constructor|].
    change (zlen (@nil Z)) with 0 in *. apply znth_ext; [exact H1|]. intros i Hi. rewrite H1 in Hi. rewrite H2 by exact Hi. reflexivity.
  Qed.
  Lemma stands_wf a z : stands den (Arr a) z -> wf z.
  Proof. intros (W & D & HE). split; [rewrite <- D; apply W|]. split; [rewrite <- D; apply W|]. rewrite <- D, <- (Forall2_zlen _ _ _ HE). apply W. Qed.
  Lemma wf_vec1 {A} (a : arr A) n : wf a -> dims a = [n] -> a = vec (elems a) /\ zlen (elems a) = n.
  Proof. intros (_ & _ & W) D. rewrite D in W. cbn in W. assert (zlen (elems a) = n) by lia. split; [|assumption]. destruct a as [d e]. cbn in *. unfold vec. congruence. Qed.

  Lemma encode_arr_ok nil (al : arr V) R la ra n lr : stands den (Arr al) la -> stands den R ra -> dims la = n :: lr -> 0 < n ->
    (exists J, inb (dims ra) J) ->
    (forall I N, inb lr I -> In N (elems ra) -> representable B (line la 0 n I) N) ->
    exists res z, encode ops nil (Arr al) R = Ok (Arr res) /\ stands den (Arr res) z /\ dims z = dims la ++ dims ra /\
      forall d I J N, inb (dims la) (d :: I) -> inb (dims ra) J -> elem ra J = Some N -> elem z (d :: I ++ J) = znth (digits (line la 0 n I) N) d.
  Proof using E.
    intros SL SR Hla Hn HJ HB. destruct HJ as (J0 & HJ0).
    assert (HA : exists res z, encodeArray ops nil al R = Ok res /\ stands den (Arr res) z /\ dims z = dims la ++ dims ra /\
      forall d I J N, inb (dims la) (d :: I) -> inb (dims ra) J -> elem ra J = Some N -> elem z (d :: I ++ J) = znth (digits (line la 0 n I) N) d).
    { apply (encodeArray_ok ops den B E nil al R la ra n lr SL SR Hla Hn). intros I HI.
      assert (HN : exists N0, In N0 (elems ra)).
      { destruct R as [x| |r]; [destruct SR as (N & _ & ->); exists N; left; reflexivity|destruct SR|]. destruct (elem_some ra J0 (stands_wf _ _ SR) HJ0) as (N0 & H0). exists N0. eapply znth_In. exact H0. }
      destruct HN as (N0 & HN0). destruct (HB I N0 HI HN0) as (R1 & R2 & R3). split; [exact R1|].
      assert (0 <= hd 0 (line la 0 n I)) by (destruct (line la 0 n I); cbn in R1 |- *; [lia|tauto]).
      split; [lia|]. split; [lia|]. intros N HN. apply (HB I N HI HN). }
    destruct R as [x| |r]; [|destruct SR|].
    - cbn [encode]. destruct SL as (W & D & HE). rewrite D, Hla.
      destruct lr as [|l2 lr].
      + change (zlen [n] =? 1) with true. cbv iota. destruct SR as (N & Hx & ->). 
        assert (Wz : wf la) by (apply (stands_wf al); repeat split; [apply W|apply W|apply W|exact D|exact HE]).
        destruct (wf_vec1 la n Wz Hla) as (Ela & Hzl). pose proof (line_vec (elems la)) as HL. rewrite <- Ela, Hzl in HL.
        specialize (HB [] N ltac:(constructor) ltac:(left; reflexivity)). rewrite HL in HB.
        assert (HB' := HB). destruct HB' as (R1 & R2 & R3).
        assert (HN : Z.abs N <= B) by (destruct (elems la); cbn [radix hd] in R1, R2; lia).
        destruct (encode_vec_ok ops den B E (elems al) (elems la) x N HE R1 (representable_vec _ _ _ HB) Hx HN) as (zs & Ez & Dz).
        rewrite Ez. cbn [omap obind]. exists (vec1 zs), (vec (digits (elems la) N)).
        assert (Hzs : zlen zs = n) by (rewrite (Forall2_zlen _ _ _ Dz); unfold zlen in *; rewrite digits_length; exact Hzl).
        assert (Hzd : zlen (digits (elems la) N) = n) by (rewrite <- (Forall2_zlen _ _ _ Dz); exact Hzs).
        split; [reflexivity|]. split; [|split].
        * split; [split; [discriminate|]; cbn; split; [constructor; [apply zlen_nonneg|constructor]|lia]|]. cbn. split; [f_equal; congruence|exact Dz].
        * cbn. rewrite Hzd. reflexivity.
        * intros d I J N' HI HJ HN'. inversion HI as [|? ? ? ? Hd HI']; subst. inversion HI'; subst. inversion HJ; subst. cbn in HN'. unfold elem in HN'. cbn in HN'. inversion HN'; subst N'.
          rewrite HL. unfold elem. cbn. f_equal; lia.
      + assert (zlen (n :: l2 :: lr) =? 1 = false) as -> by (rewrite !zlen_cons; pose proof (zlen_nonneg lr); lia).
        destruct HA as (res & z & HE' & HA). rewrite HE'. cbn [omap obind]. exists res, z. split; [reflexivity|rewrite Hla in HA; exact HA].
    - cbn [encode]. destruct HA as (res & z & HE' & HA). rewrite HE'. cbn [omap obind]. exists res, z. split; [reflexivity|exact HA].
  Qed.

  Lemma inverse_ok nil (al : arr V) R la ra : stands den (Arr al) la -> stands den R ra -> zlen (dims la) = 1 -> elems la <> [] ->
    1 <= B -> product (elems la) <= B -> (exists J, inb (dims ra) J) -> (forall N, In N (elems ra) -> representable B (elems la) N) ->
    exists v w, encode ops nil (Arr al) R = Ok v /\ decode ops (Arr al) v = Ok w /\ stands den w (mkArr (dims ra) (map (fun N => N mod product (elems la)) (elems ra))).
  Proof using E.
    intros SL SR Hd1 Hne HB1 HP HJ HB.
    assert (Hdl : exists n, dims la = [n]).
    { destruct (dims la) as [|n [|? ?]]; [unfold zlen in Hd1; cbn in Hd1; lia|eauto|]. rewrite !zlen_cons in Hd1. pose proof (zlen_nonneg l). lia. }
    destruct Hdl as (n & Hla). pose proof (stands_wf _ _ SL) as Wz. destruct (wf_vec1 la n Wz Hla) as (Ela & Hzl).
    pose proof (line_vec (elems la)) as HL. rewrite <- Ela, Hzl in HL.
    assert (Hn : 0 < n) by (destruct (elems la); [congruence|]; rewrite zlen_cons in Hzl; pose proof (zlen_nonneg l); lia).
    destruct (encode_arr_ok nil al R la ra n [] SL SR Hla Hn HJ) as (res & z & EE & SZ & DZ & HZ).
    { intros I N HI HN. inversion HI; subst I. rewrite HL. auto. }
    exists (Arr res). rewrite EE.
    assert (Hra : forall J, inb (dims ra) J -> exists N, elem ra J = Some N /\ In N (elems ra)).
    { intros J HJ'. destruct R as [x| |r]; [|destruct SR|].
      - destruct SR as (N & _ & ->). inversion HJ'; subst. exists N. split; [reflexivity|left; reflexivity].
      - destruct (elem_some ra J (stands_wf _ _ SR) HJ') as (N & HN). exists N. split; [exact HN|eapply znth_In; exact HN]. }
    rewrite Hla in DZ. cbn [app] in DZ. pose proof (stands_wf _ _ SZ) as Wzz.
    assert (HLz : forall J N, inb (dims ra) J -> elem ra J = Some N -> line z 0 n J = digits (elems la) N).
    { intros J N HJ' HN. destruct (line_ok z 0 n J Wzz) as (L1 & L2); [rewrite DZ; apply znth_cons_0|rewrite DZ; exact HJ'|].
      assert (zlen (digits (elems la) N) = n) as Hdn by (unfold zlen in *; rewrite digits_length; exact Hzl).
      apply znth_ext; [lia|]. intros i Hi. rewrite L2 by lia. rewrite ins_first.
      pose proof (HZ i [] J N) as X. cbn [app] in X. rewrite X; [rewrite HL; reflexivity| |exact HJ'|exact HN]. rewrite Hla. constructor; [lia|constructor]. }
    assert (Pla : promote la = la) by (unfold promote; rewrite Hla; reflexivity).
    assert (Pz : promote z = z) by (unfold promote; rewrite DZ; reflexivity).
    assert (Fn : forall l, zlen l = n -> fit n l = l).
    { intros [|x [|y l]] Hl; try reflexivity. change (zlen [x]) with 1 in Hl. subst n. rewrite <- Hl. reflexivity. }
    destruct (decode_ok ops den B E (Arr al) (Arr res) la z [] (dims ra) n n n SL SZ) as (w & y & ED & SY & DY & HY); auto.
    - rewrite Pla. exact Hla.
    - rewrite Pz. exact DZ.
    - intros I J HI HJ'. inversion HI; subst I. rewrite Pla, Pz. change (zlen (@Datatypes.nil Z)) with 0. rewrite HL. destruct (Hra J HJ') as (N & HN & HIn). rewrite (HLz J N HJ' HN).
      rewrite (Fn (elems la)) by exact Hzl. rewrite Fn by (unfold zlen in *; rewrite digits_length; exact Hzl). destruct (HB N HIn) as (R1 & R2 & R3). apply bounded_digits; auto.
    - exists w. split; [reflexivity|]. split; [exact ED|]. cbn [app] in DY.
      assert (EY : y = mkArr (dims ra) (map (fun N => N mod product (elems la)) (elems ra))); [|rewrite <- EY; exact SY].
      assert (HYv : forall J, inb (dims ra) J -> exists N, elem ra J = Some N /\ elem y J = Some (N mod product (elems la))).
      { intros J HJ'. destruct (Hra J HJ') as (N & HN & HIn). exists N. split; [exact HN|]. pose proof (HY [] J ltac:(constructor) HJ') as X. cbn [app] in X. rewrite X. rewrite Pla, Pz. change (zlen (@Datatypes.nil Z)) with 0. rewrite HL, (HLz J N HJ' HN).
        rewrite (Fn (elems la)) by exact Hzl. rewrite Fn by (unfold zlen in *; rewrite digits_length; exact Hzl). rewrite value_digits_radix; [reflexivity|apply (HB N HIn)|exact Hne]. }
      destruct y as [dy ey]. cbn [dims] in DY. subst dy. f_equal.
      assert (Hlen : zlen ey = size (dims ra) /\ zlen (elems ra) = size (dims ra) /\ Forall (fun d => 0 <= d) (dims ra)).
      { destruct R as [x| |r]; [|destruct SR|].
        - destruct SR as (N & _ & ->). cbn [dims elems] in *. destruct w as [u| |u]; [|destruct SY|destruct SY as ((X & _) & DD & _); cbn in DD; congruence]. destruct SY as (N' & _ & EE'). inversion EE'. split; [reflexivity|]. split; [reflexivity|constructor].
        - pose proof (stands_wf _ _ SR) as (W1 & W2 & W3). split; [|split; [exact W3|exact W2]]. destruct w as [u| |u]; [destruct SY as (N' & _ & EE'); inversion EE'; congruence|destruct SY|]. pose proof (stands_wf _ _ SY) as (_ & _ & W4). exact W4. }
      destruct Hlen as (L1 & L2 & L3). apply znth_ext; [rewrite zlen_map; lia|]. intros i Hi. rewrite L1 in Hi.
      destruct (ic_indexes_spec (dims ra) i L3 Hi) as (J & _ & HJ' & Hp). destruct (HYv J HJ') as (N & HN & HyN). unfold elem in HN, HyN. cbn [dims elems] in HyN. rewrite Hp in HN, HyN. rewrite HyN, znth_map, HN. reflexivity.
  Qed.
End P.
