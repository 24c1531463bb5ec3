(* P_Json2.v -- the texts of whole values are JSON. *)
From Coq Require Import List Bool ZArith Lia.
From Verif Require Import Base M_Array S_Array P_Array M_Scan S_Scan M_Strings M_Format S_Format P_Format P_Format2 P_Format3 S_TimeText P_TimeText M_Json S_Json P_Json.
Import ListNotations.
Open Scope list_scope. Open Scope Z_scope.

Lemma each_text_ok {A} (f : A -> outcome text) l ts : Forall2 (fun x t => f x = Ok t) l ts -> each_text f l = Ok ts.
Proof. induction 1 as [|x t l ts H _ IH]; [reflexivity|]. unfold each_text in *. cbn. rewrite H. cbn [obind]. rewrite IH. reflexivity. Qed.
Lemma json_join ts js : Forall2 json ts js -> json_values (Join ts [r_comma]) js.
Proof.
  induction 1 as [|t j ts js H F IH]; [constructor|]. destruct F as [|t2 j2 ts js H2 F]; [cbn [Join]; apply jv_one, H|].
  change (Join (t :: t2 :: ts) [r_comma]) with (t ++ 44 :: Join (t2 :: ts) [r_comma]). apply jv_more; [exact H|exact IH|discriminate].
Qed.
Lemma json_brackets ts js : Forall2 json ts js -> json ([r_lbrack] ++ Join ts [r_comma] ++ [r_rbrack]) (JArr js).
Proof. intros H. apply json_arr. apply json_join, H. Qed.
Lemma Forall2_firstn {A B} (P : A -> B -> Prop) n : forall l m, Forall2 P l m -> Forall2 P (firstn n l) (firstn n m).
Proof. induction n as [|n IH]; intros l m H; [constructor|]. destruct H; cbn [firstn]; constructor; auto. Qed.
Lemma Forall2_skipn {A B} (P : A -> B -> Prop) n : forall l m, Forall2 P l m -> Forall2 P (skipn n l) (skipn n m).
Proof. induction n as [|n IH]; intros l m H; [exact H|]. destruct H; cbn [skipn]; [constructor|]. apply IH. assumption. Qed.
Lemma firstn_skipn_firstn {A} a b c (l : list A) : (b + a <= c)%nat -> firstn a (skipn b (firstn c l)) = firstn a (skipn b l).
Proof. intros H. rewrite skipn_firstn_comm, firstn_firstn. f_equal. lia. Qed.
Lemma json_vector_ok ds : ds <> [] -> Forall (fun d => 0 <= d) ds -> forall ts js, Forall2 json ts js -> size ds <= zlen ts ->
  exists t, json_vector ds ts = Ok t /\ json t (nested ds (firstn (Z.to_nat (size ds)) js)).
Proof.
  induction ds as [|d ds IH]; intros NE P ts js F Hs; [contradiction|]. inversion P as [|? ? Hd P2]. subst. destruct ds as [|d2 ds].
  - cbn [size] in *. cbn [json_vector nested]. replace (zlen ts <? d) with false by lia. eexists. split; [reflexivity|]. apply json_brackets. replace (d * 1) with d by lia. apply Forall2_firstn, F.
  - set (ds' := d2 :: ds) in *. assert (S0 : 0 <= size ds') by (apply size_nonneg; exact P2). assert (EP : Prod ds' = size ds') by (apply Prod_size; discriminate).
    change (size (d :: ds')) with (d * size ds') in *.
    change (json_vector (d :: ds') ts) with (let inc := Prod ds' in (let* vec := mapM (fun i => if zlen ts <? i * inc then Panic else json_vector ds' (skipn (Z.to_nat (i * inc)) ts)) (zseq d) in Ok ([r_lbrack] ++ Join vec [r_comma] ++ [r_rbrack]))).
    cbv zeta. rewrite EP.
    change (nested (d :: ds') (firstn (Z.to_nat (d * size ds')) js)) with (JArr (map (fun i => nested ds' (firstn (Z.to_nat (size ds')) (skipn (Z.to_nat (i * size ds')) (firstn (Z.to_nat (d * size ds')) js)))) (zseq d))).
    assert (G : forall l, (forall i, In i l -> 0 <= i < d) -> exists vec, mapM (fun i => if zlen ts <? i * size ds' then Panic else json_vector ds' (skipn (Z.to_nat (i * size ds')) ts)) l = Ok vec /\
      Forall2 json vec (map (fun i => nested ds' (firstn (Z.to_nat (size ds')) (skipn (Z.to_nat (i * size ds')) (firstn (Z.to_nat (d * size ds')) js)))) l)).
    { induction l as [|i l IHl]; intros Hl; [exists []; split; [reflexivity|constructor]|]. destruct IHl as (vec & E & FV); [intros; apply Hl; right; assumption|]. assert (Hi : 0 <= i < d) by (apply Hl; left; reflexivity).
      assert (Hb : i * size ds' + size ds' <= d * size ds') by (generalize dependent (size ds'); intros s0; intros; nia). assert (Hb0 : 0 <= i * size ds') by (apply Z.mul_nonneg_nonneg; lia).
      cbn [mapM]. replace (zlen ts <? i * size ds') with false by lia.
      destruct (IH ltac:(discriminate) P2 (skipn (Z.to_nat (i * size ds')) ts) (skipn (Z.to_nat (i * size ds')) js)) as (t & E1 & J1); [apply Forall2_skipn, F|unfold zlen in *; rewrite skipn_length; lia|].
      rewrite E1. cbn [obind]. rewrite E. cbn [obind]. eexists. split; [reflexivity|]. cbn [map]. constructor; [|exact FV]. rewrite firstn_skipn_firstn by lia. exact J1. }
    destruct (G (zseq d)) as (vec & E & FV); [intros i Hi; apply In_zseq in Hi; exact Hi|]. rewrite E. cbn [obind]. eexists. split; [reflexivity|]. apply json_brackets, FV.
Qed.
Lemma decimal_json z : 0 <= z < 2 ^ 63 -> json_int (decimal z).
Proof.
  intros H. destruct (Z.eq_dec z 0) as [->|N0]; [left; reflexivity|]. right. destruct (decimal_pos z) as (d & l & E & Hd & _); [lia|]. exists (48 + d), l. split; [exact E|]. split; [lia|].
  pose proof (decimal_digits z) as F. rewrite E in F. inversion F. assumption.
Qed.

Section Values.
  Context (IsPrint : Z -> bool) (del : bool) (AP : ascii_print IsPrint).
  Notation q := (Quote IsPrint del).
  Lemma dict_go ks : forall vs js, length ks = length vs -> Forall (Forall (json_rune IsPrint del)) ks -> Forall2 (fun v j => exists t, jsonText q v = Ok t /\ json t j) vs js ->
    exists ts, (fix go (d : list (wval * wval)) : outcome (list text) :=
                      match d with
                      | [] => Ok []
                      | (k, v) :: r => let* a := jsonText q k in let* b := jsonText q v in let* ts := go r in Ok ((a ++ 58 :: b) :: ts)
                      end) (combine (map WStr ks) vs) = Ok ts /\ json_members (Join ts [r_comma]) (combine ks js) /\ length ts = length ks.
  Proof.
    induction ks as [|k ks IH]; intros vs js HL HK HF.
    - destruct vs; [|discriminate HL]. exists []. split; [reflexivity|]. split; [constructor|reflexivity].
    - destruct vs as [|v vs]; [discriminate HL|]. inversion HF as [|? j ? js' (t & Et & Jt) HF']. subst. inversion HK as [|? ? K1 K2]. subst.
      destruct (IH vs js' ltac:(cbn in HL; lia) K2 HF') as (ts & E & M & Lt). cbn [map combine]. cbn [jsonText obind]. rewrite Et. cbn [obind]. rewrite E. cbn [obind]. eexists. split; [reflexivity|]. split; [|cbn [length]; lia].
      pose proof (json_quote IsPrint del AP k K1) as JK. destruct ts as [|t2 ts].
      + destruct ks; [|discriminate Lt]. cbn [Join combine]. apply jm_one; assumption.
      + change (Join ((q k ++ 58 :: t) :: t2 :: ts) [r_comma]) with ((q k ++ 58 :: t) ++ 44 :: Join (t2 :: ts) [r_comma]). destruct ks as [|k2 ks]; [discriminate Lt|].
        apply jm_more; [exact JK|exact Jt|exact M|]. destruct vs; [discriminate HL|]. inversion HF'. subst. discriminate.
  Qed.
  Lemma json_text_ok : forall v j, denotes IsPrint del v j -> exists t, jsonText q v = Ok t /\ json t j.
  Proof.
    fix IH 3. intros v j D.
    assert (G : forall l js, Forall2 (denotes IsPrint del) l js -> Forall2 (fun v j => exists t, jsonText q v = Ok t /\ json t j) l js).
    { clear D. fix IHF 3. intros l js H. destruct H as [|x y l js H1 H2]; [constructor|]. constructor; [apply IH; exact H1|apply IHF; exact H2]. }
    assert (G2 : forall l js, Forall2 (fun v j => exists t, jsonText q v = Ok t /\ json t j) l js -> exists ts, each_text (jsonText q) l = Ok ts /\ Forall2 json ts js).
    { clear. induction 1 as [|x y l js (t & E & J) _ (ts & E2 & F)]; [exists []; split; [reflexivity|constructor]|]. exists (t :: ts). split; [|constructor; assumption]. unfold each_text in *. rewrite E. cbn [obind]. rewrite E2. reflexivity. }
    destruct D as [z Hz|t Ht|s Hs|ds es js NE P HL F|l js F|ks vs js HK HL F].
    - exists (intString z). split; [reflexivity|]. unfold intString. replace (z <? 0) with false by lia. pose proof (json_integer (decimal z) (decimal_json z Hz)) as J. rewrite decimal_value in J by lia. exact J.
    - exists t. split; [reflexivity|]. apply json_num, Ht.
    - exists (q s). split; [reflexivity|]. apply json_str, json_quote; assumption.
    - destruct (G2 _ _ (G _ _ F)) as (ts & E & FJ). cbn [jsonText]. rewrite E. cbn [obind].
      assert (ZT : zlen ts = size ds). { rewrite <- HL. unfold zlen. f_equal. transitivity (length js); [eapply Forall2_length; exact FJ|symmetry; eapply Forall2_length; exact F]. }
      destruct (json_vector_ok ds NE P ts js FJ ltac:(lia)) as (t & E1 & J). exists t. split; [exact E1|]. rewrite firstn_all2 in J; [exact J|].
      assert (LJ : length ts = length js) by (eapply Forall2_length; exact FJ). unfold zlen in ZT. lia.
    - destruct (G2 _ _ (G _ _ F)) as (ts & E & FJ). cbn [jsonText]. rewrite E. cbn [obind]. eexists. split; [reflexivity|]. apply json_brackets, FJ.
    - destruct (dict_go ks vs js HL HK (G _ _ F)) as (ts & E & M & _). cbn [jsonText]. rewrite E. cbn [obind]. eexists. split; [reflexivity|]. apply json_obj, M.
  Qed.
End Values.

(* ---------- texts that are not JSON ---------- *)
Definition head_ok (c : Z) : Prop := c = 45 \/ 48 <= c <= 57 \/ c = 34 \/ c = 91 \/ c = 123.
Lemma json_int_head t : json_int t -> exists c s, t = c :: s /\ 48 <= c <= 57 /\ Forall (fun c => 48 <= c <= 57) s.
Proof. intros [->|(c & s & -> & H & F)]; [exists 48, []; split; [reflexivity|split; [lia|constructor]]|exists c, s; split; [reflexivity|split; [lia|exact F]]]. Qed.
Definition numrune (c : Z) : Prop := 48 <= c <= 57 \/ In c [43; 45; 46; 69; 101].
Lemma number_runes t : json_number t -> exists c s, t = c :: s /\ (c = 45 \/ 48 <= c <= 57) /\ Forall numrune (c :: s).
Proof.
  intros (m & i & f & e & -> & Hm & Hi & Hf & He). destruct (json_int_head i Hi) as (c & s & -> & Hc & Fs).
  assert (D : forall l, Forall (fun c => 48 <= c <= 57) l -> Forall numrune l) by (intros l; apply Forall_impl; intros a Ha; left; exact Ha).
  assert (FF : Forall numrune ((c :: s) ++ f ++ e)).
  { apply Forall_app. split; [constructor; [left; exact Hc|apply D, Fs]|]. apply Forall_app. split.
    - destruct Hf as [->|(d & -> & _ & Hd)]; [constructor|]. constructor; [right; cbn; tauto|apply D, Hd].
    - destruct He as [->|(x & y & d & -> & Hx & Hy & _ & Hd)]; [constructor|]. constructor; [right; cbn; lia|]. apply Forall_app. split; [|apply D, Hd].
      destruct Hy as [->|[->| ->]]; repeat constructor; right; cbn; tauto. }
  destruct Hm as [->| ->]; cbn [app] in *; [exists c, (s ++ f ++ e); split; [reflexivity|split; [right; exact Hc|exact FF]]|].
  exists 45, (c :: s ++ f ++ e). split; [reflexivity|]. split; [left; reflexivity|]. constructor; [right; cbn; tauto|exact FF].
Qed.
Lemma json_head t j : json t j -> exists c s, t = c :: s /\ head_ok c /\ ((c = 45 \/ 48 <= c <= 57) -> Forall numrune (c :: s)).
Proof.
  unfold head_ok. intros J. destruct J as [t H|t H|t H|t s H|t l _|t l _].
  - destruct (json_int_head t H) as (c & s & -> & Hc & F). exists c, s. split; [reflexivity|]. split; [lia|]. intros _. constructor; [left; exact Hc|]. eapply Forall_impl; [|exact F]. intros a Ha. left. exact Ha.
  - destruct (json_int_head t H) as (c & s & -> & Hc & F). exists 45, (c :: s). split; [reflexivity|]. split; [lia|]. intros _. constructor; [right; cbn; tauto|]. constructor; [left; exact Hc|]. eapply Forall_impl; [|exact F]. intros a Ha. left. exact Ha.
  - destruct (number_runes t H) as (c & s & -> & Hc & F). exists c, s. split; [reflexivity|]. split; [lia|]. intros _. exact F.
  - destruct H as [t s H]. exists 34, (t ++ [34]). split; [reflexivity|]. split; [lia|]. lia.
  - exists 91, (t ++ [93]). split; [reflexivity|]. split; [lia|]. lia.
  - exists 123, (t ++ [125]). split; [reflexivity|]. split; [lia|]. lia.
Qed.
