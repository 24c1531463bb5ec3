(* P_Decode4.v -- decode. *)
From Coq Require Import Lia.
From Verif Require Import Base M_Array S_Array P_Array M_Structural S_Structural S_Reduce P_Reduce P_Comma Eff M_Operators S_Operators P_Operators Prop_Operators M_Decode S_Decode P_Decode P_Decode2 P_Decode3.
Open Scope Z_scope.

(* the products of all tails, down to the empty one *)
Fixpoint ws (T : list Z) : list Z := match T with [] => [1] | t :: T' => product T :: ws T' end.
Lemma ws_length T : length (ws T) = S (length T).
Proof. induction T; cbn; congruence. Qed.
Lemma ws_hd T : exists r, ws T = product T :: r.
Proof. destruct T; cbn; eauto. Qed.

Lemma inb_snoc (lr : list Z) n idx : inb (lr ++ [n]) idx -> exists I k, idx = I ++ [k] /\ inb lr I /\ 0 <= k < n.
Proof.
  intros H. apply inb_split in H. destruct H as (I & J & -> & HI & HJ). inversion HJ as [|? k ? J' Hk HJ' E1]; subst. inversion HJ'; subst. exists I, k. auto.
Qed.

Lemma znth_concat {A} n : forall (rows : list (list A)) i j r, Forall (fun r => zlen r = n) rows -> znth rows i = Some r -> 0 <= j < n -> znth (concat rows) (i * n + j) = znth r j.
Proof.
  induction rows as [|x rows IH]; intros i j r H Hi Hj; [apply znth_some_range in Hi; zl; lia|]. inversion H; subst. cbn [concat].
  destruct (Z.eq_dec i 0) as [->|Hn].
  - rewrite znth_cons_0 in Hi. inversion Hi; subst. rewrite znth_app_l by lia. reflexivity.
  - pose proof (znth_some_range _ _ _ Hi). rewrite znth_cons_pos in Hi by lia. rewrite znth_app_r by nia. rewrite <- (IH (i - 1) j r) by auto. f_equal. lia.
Qed.
Lemma zlen_concat {A} n (rows : list (list A)) : Forall (fun r => zlen r = n) rows -> zlen (concat rows) = zlen rows * n.
Proof. induction 1; [reflexivity|]. cbn [concat]. zla. lia. Qed.
Lemma del_snoc (lr : list Z) n : del (zlen lr) (lr ++ [n]) = lr.
Proof.
  unfold del. rewrite firstn_app, skipn_app. unfold zlen. rewrite Nat2Z.id. rewrite Nat.sub_diag, firstn_O, app_nil_r, firstn_all.
  rewrite skipn_all2 by lia. cbn [app]. match goal with |- context [skipn ?k [n]] => replace k with 1%nat by lia end. cbn. apply app_nil_r.
Qed.
Lemma line_last_ok {A} (a : arr A) lr n I : wf a -> dims a = lr ++ [n] -> inb lr I ->
  zlen (line a (zlen lr) n I) = n /\ forall k, 0 <= k < n -> znth (line a (zlen lr) n I) k = znth (elems a) (pos lr I * n + k).
Proof.
  intros Hw Hd HI. destruct (line_ok a (zlen lr) n I Hw) as (H1 & H2).
  - rewrite Hd, znth_app_r by lia. rewrite Z.sub_diag. reflexivity.
  - rewrite Hd, del_snoc. exact HI.
  - split; [exact H1|]. intros k Hk. rewrite H2 by exact Hk. unfold elem. rewrite ins_last by (apply inb_zlen; exact HI). rewrite Hd, pos_app' by (eapply Forall2_length; exact HI).
    cbn [size pos]. f_equal. lia.
Qed.
Lemma rows_elems {A} (a : arr A) lr n : wf a -> dims a = lr ++ [n] -> elems a = concat (map (line a (zlen lr) n) (all_idx lr)).
Proof.
  intros Hw Hd. assert (Hnn : Forall (fun d => 0 <= d) (lr ++ [n])) by (rewrite <- Hd; apply Hw). apply Forall_app in Hnn. destruct Hnn as (Hlr & Hn). inversion Hn; subst.
  assert (HR : Forall (fun r => zlen r = n) (map (line a (zlen lr) n) (all_idx lr))).
  { apply Forall_forall. intros r Hr. apply in_map_iff in Hr. destruct Hr as (I & <- & HI). apply In_all_idx in HI. apply (line_last_ok a lr n I Hw Hd HI). }
  assert (HS : zlen (elems a) = size lr * n) by (destruct Hw as (_ & _ & W); rewrite W, Hd, size_app; cbn; lia).
  apply znth_ext; [rewrite (zlen_concat n) by exact HR; rewrite zlen_map, zlen_all_idx by exact Hlr; exact HS|].
  intros q Hq. rewrite HS in Hq. pose proof (size_nonneg _ Hlr). assert (0 < n) by nia.
  pose proof (Z.div_mod q n ltac:(lia)) as Dm. pose proof (Z.mod_pos_bound q n ltac:(lia)) as Hm.
  destruct (ic_indexes_spec lr (q / n) Hlr) as (I & _ & HI & Hp); [split; [apply Z.div_pos; lia|apply Z.div_lt_upper_bound; lia]|].
  replace q with (q / n * n + q mod n) by lia. rewrite (znth_concat n _ _ _ (line a (zlen lr) n I)); [|exact HR| |lia].
  - destruct (line_last_ok a lr n I Hw Hd HI) as (_ & HL). rewrite HL by lia. rewrite Hp. reflexivity.
  - rewrite znth_map. rewrite <- Hp, znth_all_idx by exact HI. reflexivity.
Qed.

Section P.
  Context {V : Type} (ops : arith V) (den : V -> Z -> Prop) (B : Z) (E : exact_arith ops den B).
  Local Notation dens := (Forall2 den).

  Lemma shift_ok : forall rest (pre : list V) x post i, i = zlen pre ->
    shift (length rest) i (pre ++ x :: rest ++ post) = Ok (pre ++ rest ++ last rest x :: post).
  Proof.
    induction rest as [|y r IH]; intros pre x post i Hi; [reflexivity|]. cbn [shift length app].
    rewrite zat_app2 by lia. cbn [obind]. rewrite store_app by lia. cbn [obind].
    replace (pre ++ y :: y :: r ++ post) with ((pre ++ [y]) ++ y :: r ++ post) by (rewrite <- app_assoc; reflexivity).
    rewrite IH by (zla; lia). rewrite <- app_assoc. cbn [app]. f_equal. f_equal. f_equal. f_equal. f_equal. destruct r as [|b r]; [reflexivity|]. clear. revert b. induction r as [|c r IH]; intros b; [reflexivity|]. exact (IH c).
  Qed.
  Lemma mulscan_ok off : forall todo pre A Az Q T post, length A = todo -> off = zlen pre -> dens A Az -> dens Q (ws T) ->
    Forall (fun x => Z.abs x <= B) (Az ++ T) -> Forall (fun x => Z.abs x <= B) (ws (Az ++ T)) ->
    exists r, mulscan ops todo off (pre ++ A ++ Q ++ post) = Ok (pre ++ r ++ post) /\ dens r (ws (Az ++ T)).
  Proof using E.
    induction todo as [|m IH]; intros pre A Az Q T post HA Hoff DA DQ HB HW.
    - destruct A; [|discriminate]. inversion DA; subst. exists Q. split; [reflexivity|exact DQ].
    - destruct (@exists_last _ A) as (A' & a & EA); [intros ->; discriminate|]. subst A. rewrite app_length in HA. cbn in HA.
      apply Forall2_app_inv_l in DA. destruct DA as (Az' & az & DA' & Da & ->). inversion Da as [|? z ? ? Hz Dn]; subst. inversion Dn; subst.
      destruct (ws_hd T) as (wr & Ew). rewrite Ew in DQ. inversion DQ as [|q ? Q' ? Hq DQ']; subst.
      rewrite <- !app_assoc in *. cbn [app] in *. cbn [mulscan].
      assert (Hl : zlen (pre ++ A') = zlen pre + Z.of_nat m) by (zla; unfold zlen; lia).
      replace (pre ++ A' ++ a :: q :: Q' ++ post) with ((pre ++ A') ++ a :: q :: Q' ++ post) by (rewrite <- app_assoc; reflexivity).
      rewrite zat_app2 by lia. cbn [obind]. rewrite zat_app by lia. cbn [obind].
      assert (HB' : Z.abs z <= B) by (apply Forall_app in HB; destruct HB as (_ & HB); inversion HB; assumption).
      assert (HW' : Forall (fun x => Z.abs x <= B) (ws (z :: T))).
      { clear - HW. revert HW. induction Az' as [|y Az' IH]; cbn [app ws]; [auto|]. intros H. inversion H; subst. auto. }
      cbn [ws] in HW'. rewrite Ew in HW'. inversion HW' as [|? ? W1 W2]; subst. inversion W2; subst. change (Z.abs (z * product T) <= B) in W1.
      destruct (ex_mul _ _ _ E q a (product T) z Hq Hz) as (v & Ev & Dv); auto; [rewrite Z.mul_comm; exact W1|]. rewrite Ev. cbn [obind]. rewrite store_app by lia. cbn [obind].
      rewrite <- app_assoc.
      destruct (IH pre A' Az' (v :: q :: Q') (z :: T) post) as (r & Er & Dr); auto; [lia| |exists r; split; assumption].
      cbn [ws]. rewrite Ew. rewrite product_cons. rewrite (Z.mul_comm (product T)) in Dv. repeat constructor; assumption.
  Qed.
  (* the weights of the digits *)
  Definition weights (L : list Z) : list Z := match L with [] => [] | _ :: L' => ws L' end.
  Lemma power_block_ok pre A L post : dens A L -> L <> [] -> Forall (fun x => Z.abs x <= B) L -> Forall (fun x => Z.abs x <= B) (weights L) ->
    exists r, power_block ops (zlen L) (zlen pre) (pre ++ A ++ post) = Ok (pre ++ r ++ post) /\ dens r (weights L).
  Proof using E.
    intros DA Hne HB HW. destruct DA as [|x l A L Hx DA]; [congruence|]. cbn [weights] in *. inversion HB; subst.
    unfold power_block. zl. replace (Z.to_nat (1 + zlen L - 1)) with (length A) by (rewrite (Forall2_length _ _ _ DA); unfold zlen; lia).
    change ((x :: A) ++ post) with (x :: A ++ post). rewrite shift_ok by reflexivity. cbn [obind].
    replace (pre ++ A ++ last A x :: post) with ((pre ++ A) ++ last A x :: post) by (rewrite <- app_assoc; reflexivity).
    rewrite store_app by (zla; rewrite (Forall2_zlen _ _ _ DA); lia). cbn [obind]. rewrite <- app_assoc.
    destruct (mulscan_ok (zlen pre) (length A) pre A L [a_int ops 1] [] post) as (r & Er & Dr); auto.
    - cbn. constructor; [apply (ex_int _ _ _ E); lia|constructor].
    - rewrite app_nil_r. assumption.
    - rewrite app_nil_r. assumption.
    - rewrite app_nil_r in Dr. exists r. split; [exact Er|exact Dr].
  Qed.
  (* all blocks *)
  Lemma power_loop_ok N : 0 < N -> forall rows zrows fuel pre, Forall2 dens rows zrows -> (length (concat rows) <= fuel)%nat ->
    Forall (fun L => zlen L = N /\ Forall (fun x => Z.abs x <= B) L /\ Forall (fun x => Z.abs x <= B) (weights L)) zrows ->
    exists rs, power_loop ops fuel N (zlen pre) (pre ++ concat rows) = Ok (pre ++ concat rs) /\ Forall2 dens rs (map weights zrows).
  Proof using E.
    intros HN. induction rows as [|A rows IH]; intros zrows fuel pre D Hf HB.
    - inversion D; subst. exists []. split; [|constructor]. cbn [concat]. rewrite app_nil_r. destruct fuel; cbn [power_loop]; replace (zlen pre <=? zlen pre) with true by lia; reflexivity.
    - inversion D as [|? L ? zrows' DA DR]; subst. inversion HB as [|? ? (HL & HB1 & HB2) HB']; subst. cbn [concat map] in *.
      assert (HA : zlen A = zlen L) by (apply (Forall2_zlen _ _ _ DA)).
      destruct fuel as [|fuel]; [rewrite app_length in Hf; unfold zlen in *; lia|]. cbn [power_loop].
      pose proof (zlen_nonneg (concat rows)). replace (zlen (pre ++ A ++ concat rows) <=? zlen pre) with false by (zla; lia).
      destruct (power_block_ok pre A L (concat rows) DA) as (r & Er & Dr); auto; [intros ->; cbn in HN; lia|]. rewrite Er. cbn [obind].
      assert (Hr : zlen r = zlen L).
      { rewrite (Forall2_zlen _ _ _ Dr). destruct L; [cbn in HN; lia|]. cbn [weights]. unfold zlen. rewrite ws_length. reflexivity. }
      destruct (IH zrows' fuel (pre ++ r) DR) as (rs & Ers & Drs); auto.
      { rewrite app_length in Hf. unfold zlen in *. lia. }
      rewrite <- !app_assoc in Ers. rewrite zlen_app, Hr in Ers. exists (r :: rs). split; [cbn [concat]; exact Ers|]. constructor; assumption.
  Qed.
  (* the inner product of weights and digits *)
  Lemma fold_value : forall L D W X, L <> [] -> length L = length D -> dens W (weights L) -> dens X D -> bounded B L D ->
    forall s : unit, exists v, inner_fold (fun x y s => (a_add ops x y, s)) (fun x y s => (a_mul ops x y, s)) (combine W X) s = (Ok v, s) /\ den v (value L D).
  Proof using E.
    induction L as [|l L IH]; intros D W X Hne HL HW HX HB s; [congruence|]. destruct D as [|d D]; [discriminate|].
    cbn [weights] in HW. destruct (ws_hd L) as (wr & Ew). rewrite Ew in HW. inversion HW as [|w ? W' ? Hw HW']; subst. inversion HX as [|x ? X' ? Hx HX']; subst.
    cbn [bounded] in HB. destruct HB as (B1 & B1' & B2 & B3 & B4 & B5).
    destruct (ex_mul _ _ _ E w x (product L) d Hw Hx B2 B1') as (u & Eu & Du); [rewrite Z.mul_comm; exact B3|]. rewrite Z.mul_comm in Du.
    cbn [combine]. destruct L as [|l' L].
    - destruct D; [|discriminate]. inversion HX'; subst. destruct W'; [|destruct wr; [inversion HW'|cbn in Ew; inversion Ew]]. cbn [combine inner_fold]. exists u. rewrite Eu. split; [reflexivity|]. cbn [value]. rewrite Z.add_0_r. exact Du.
    - destruct D as [|d' D]; [discriminate|].
      assert (HWr : dens W' (weights (l' :: L))) by (cbn [weights]; cbn [ws] in Ew; inversion Ew; subst; exact HW').
      destruct (IH (d' :: D) W' X') with (s := s) as (v & Ev & Dv); auto; [discriminate|].
      cbn [weights] in HWr. destruct (ws_hd L) as (wr' & Ew'). rewrite Ew' in HWr. inversion HWr as [|w1 ? W1 ? Hw1 HW1]; subst. inversion HX' as [|x1 ? X1 ? Hx1 HX1]; subst.
      cbn [combine] in Ev |- *. change (inner_fold ?f ?g ((w, x) :: ?r :: ?rs) s) with ((let! v := inner_fold f g (r :: rs) in let! u := g w x in f u v) s).
      unfold ebind. rewrite Ev. rewrite Eu.
      destruct (ex_add _ _ _ E u v (d * product (l' :: L)) (value (l' :: L) (d' :: D)) Du Dv) as (t & Et & Dt); auto.
      + cbn [bounded] in B5. tauto.
      + exists t. rewrite Et. split; [reflexivity|exact Dt].
  Qed.

  (* the power matrix *)
  Lemma power_matrix (al : arr V) (la : arr Z) lr n : wf al -> dims al = dims la -> dens (elems al) (elems la) -> dims la = lr ++ [n] -> 0 < n ->
    (forall I, inb lr I -> Forall (fun x => Z.abs x <= B) (line la (zlen lr) n I) /\ Forall (fun x => Z.abs x <= B) (weights (line la (zlen lr) n I))) ->
    exists p, power_loop ops (length (elems al)) n 0 (elems al) = Ok p /\ wf (mkArr (dims al) p) /\
      forall I, inb lr I -> dens (line (mkArr (dims al) p) (zlen lr) n I) (weights (line la (zlen lr) n I)).
  Proof using E.
    intros Hw Hd HE Hla Hn HB. rewrite Hla in Hd. assert (Hlr : Forall (fun d => 0 <= d) lr) by (destruct Hw as (_ & W & _); rewrite Hd in W; apply Forall_app in W; tauto).
    assert (HLL : forall I, inb lr I -> zlen (line la (zlen lr) n I) = n).
    { intros I HI. rewrite <- (Forall2_zlen _ _ _ (dens_line den al la (zlen lr) n I ltac:(rewrite Hd, Hla; reflexivity) HE)). apply (line_last_ok al lr n I Hw Hd HI). }
    destruct (power_loop_ok n Hn (map (line al (zlen lr) n) (all_idx lr)) (map (line la (zlen lr) n) (all_idx lr)) (length (elems al)) []) as (rs & Ers & Drs).
    - apply Forall2_from_znth; [zla; reflexivity|]. intros i x y Hx Hy. rewrite znth_map in Hx. rewrite znth_map in Hy. destruct (znth (all_idx lr) i); [|discriminate]. inversion Hx; inversion Hy; subst. apply dens_line; [rewrite Hd, Hla; reflexivity|exact HE].
    - rewrite <- (rows_elems al lr n Hw Hd). lia.
    - apply Forall_forall. intros r Hr. apply in_map_iff in Hr. destruct Hr as (I & <- & HI). apply In_all_idx in HI. split; [apply HLL; exact HI|apply HB; exact HI].
    - change (zlen (@nil V)) with 0 in Ers. cbn [app] in Ers. rewrite <- (rows_elems al lr n Hw Hd) in Ers.
      assert (HRn : Forall (fun r => zlen r = n) rs).
      { apply Forall_znth. intros i r Hr. pose proof (znth_some_range _ _ _ Hr) as Hi. pose proof (Forall2_zlen _ _ _ Drs) as Hz.
        rewrite !zlen_map in Hz. destruct (znth_in_range (all_idx lr) i) as (I & HI); [lia|].
        assert (D : dens r (weights (line la (zlen lr) n I))) by (eapply Forall2_znth; [exact Drs|exact Hr|rewrite !znth_map, HI; reflexivity]).
        apply znth_In, In_all_idx in HI. rewrite (Forall2_zlen _ _ _ D). pose proof (HLL I HI) as X. destruct (line la (zlen lr) n I) as [|l L]; [cbn in X; lia|]. cbn [weights]. unfold zlen in *. rewrite ws_length. exact X. }
      assert (Hlen : zlen rs = size lr) by (rewrite (Forall2_zlen _ _ _ Drs), !zlen_map; apply zlen_all_idx; exact Hlr).
      exists (concat rs). split; [exact Ers|].
      assert (Hwp : wf (mkArr (dims al) (concat rs))).
      { split; [apply Hw|]. split; [apply Hw|]. cbn [dims elems]. rewrite (zlen_concat n) by exact HRn. rewrite Hd, size_app, Hlen. cbn. lia. }
      split; [exact Hwp|]. intros I HI.
      assert (HI' : znth rs (pos lr I) <> None) by (intros X; apply znth_none in X; pose proof (pos_range _ _ HI); lia).
      destruct (znth rs (pos lr I)) as [r|] eqn:Hr; [|congruence].
      assert (D : dens r (weights (line la (zlen lr) n I))) by (eapply Forall2_znth; [exact Drs|exact Hr|rewrite !znth_map, znth_all_idx by exact HI; reflexivity]).
      replace (line (mkArr (dims al) (concat rs)) (zlen lr) n I) with r; [exact D|].
      destruct (line_last_ok (mkArr (dims al) (concat rs)) lr n I Hwp Hd HI) as (L1 & L2).
      assert (Hrn : zlen r = n) by (eapply (proj1 (Forall_znth _ _) HRn); exact Hr).
      apply znth_ext; [lia|]. intros k Hk. rewrite L2 by lia. cbn [elems]. symmetry. apply (znth_concat n); auto. lia.
  Qed.
  Lemma bounded_lw : forall L D, length L = length D -> bounded B L D -> 1 <= B -> Forall (fun x => Z.abs x <= B) L /\ Forall (fun x => Z.abs x <= B) (weights L).
  Proof.
    induction L as [|l L IH]; intros [|d D] HL HB H1; try discriminate; [split; constructor|]. cbn [bounded] in HB. destruct HB as (B1 & _ & B2 & _ & _ & B5). cbn in HL.
    destruct (IH D) as (I1 & I2); auto. split; [constructor; assumption|]. cbn [weights]. destruct L as [|l' L]; cbn [ws]; [constructor; [lia|constructor]|]. constructor; [exact B2|exact I2].
  Qed.
  Lemma decode_arr_ok (al ar : arr V) (la ra : arr Z) lr rr n : stands den (Arr al) la -> stands den (Arr ar) ra -> dims la = lr ++ [n] -> dims ra = n :: rr -> 0 < n -> 1 <= B ->
    (forall I J, inb lr I -> inb rr J -> bounded B (line la (zlen lr) n I) (line ra 0 n J)) ->
    (inb rr [] \/ exists J, inb rr J) ->
    exists w z, decode ops (Arr al) (Arr ar) = Ok w /\ stands den w z /\ dims z = lr ++ rr /\
      forall I J, inb lr I -> inb rr J -> elem z (I ++ J) = Some (value (line la (zlen lr) n I) (line ra 0 n J)).
  Proof using E.
    intros (Hwl & Hdl & HEl) (Hwr & Hdr & HEr) Hla Hra Hn HB1 HB HJ0.
    assert (HlenL : forall I, inb lr I -> zlen (line la (zlen lr) n I) = n).
    { intros I HI. rewrite <- (Forall2_zlen _ _ _ (dens_line den al la (zlen lr) n I Hdl HEl)). apply (line_last_ok al lr n I Hwl); [rewrite Hdl; exact Hla|exact HI]. }
    assert (HlenR : forall J, inb rr J -> zlen (line ra 0 n J) = n).
    { intros J HJ. rewrite <- (Forall2_zlen _ _ _ (dens_line den ar ra 0 n J Hdr HEr)). apply (line_ok ar 0 n J Hwr); rewrite Hdr, Hra; [apply znth_cons_0|exact HJ]. }
    assert (HJ : exists J, inb rr J) by (destruct HJ0; eauto). destruct HJ as (J0 & HJ0').
    destruct (power_matrix al la lr n Hwl Hdl HEl Hla Hn) as (p & Ep & Hwp & HP).
    { intros I HI. apply (bounded_lw _ (line ra 0 n J0)); auto. pose proof (HlenL I HI). pose proof (HlenR J0 HJ0'). unfold zlen in *. lia. }
    unfold decode. cbn [toArray asArr]. rewrite Hdl, Hdr, Hla, Hra. rewrite zlen_app. change (zlen [n]) with 1.
    replace (zlen lr + 1 - 1) with (zlen lr) by lia.
    replace (zat (lr ++ [n]) (zlen lr)) with (Ok n) by (symmetry; apply zat_app; reflexivity). cbn [obind]. rewrite zat_0. cbn [obind]. rewrite Z.eqb_refl. cbn [obind].
    rewrite Hdl, Hla, zlen_app. change (zlen [n]) with 1. replace (zlen lr + 1 - 1) with (zlen lr) by lia. rewrite zat_app by reflexivity. cbn [obind]. rewrite Ep. cbn [obind].
    set (f := fun x y (s : unit) => (a_add ops x y, s)). set (g := fun x y (s : unit) => (a_mul ops x y, s)).
    rewrite Hdl, Hla in Hwp, HP.
    set (al' := mkArr (lr ++ [n]) p) in *.
    assert (HF : forall I J, inb lr I -> inb rr J -> exists v, inner_fold f g (combine (line al' (zlen lr) n I) (line ar 0 n J)) tt = (Ok v, tt) /\ den v (value (line la (zlen lr) n I) (line ra 0 n J))).
    { intros I J HI HJ. pose proof (HlenL I HI) as X1. pose proof (HlenR J HJ) as X2. apply fold_value; auto.
      - intros X. rewrite X in X1. cbn in X1. lia.
      - unfold zlen in *. lia.
      - apply dens_line; assumption. }
    destruct (list_eq_dec Z.eq_dec (lr ++ rr) []) as [Hnil|Hnil].
    - apply app_eq_nil in Hnil. destruct Hnil as (-> & ->). cbn [app] in *. change (zlen (@nil Z)) with 0 in *.
      assert (HI : inb [] []) by constructor. destruct (HF [] [] HI HI) as (v & Ev & Dv).
      assert (Ea : al' = vec (elems al')) by (unfold al', vec; cbn [elems]; f_equal; destruct Hwp as (_ & _ & W); cbn [dims elems size al'] in W; rewrite W; f_equal; lia).
      assert (Er : ar = vec (elems ar)).
      { destruct ar as [da ea]. cbn [elems dims] in *. unfold vec. f_equal. destruct Hwr as (_ & _ & W). cbn [dims elems] in W. rewrite W, Hdr, Hra. cbn. f_equal. lia. }
      assert (L1 : forall A (a : arr A) l, a = vec l -> line a 0 (zlen l) [] = l).
      { clear. intros A a l ->. destruct (line_last_ok (vec l) [] (zlen l) []) as (H1 & H2); [split; [discriminate|]; cbn; split; [constructor; [apply zlen_nonneg|constructor]|lia]|reflexivity|constructor|].
        change (zlen (@nil Z)) with 0 in *. apply znth_ext; [exact H1|]. intros i Hi. rewrite H1 in Hi. rewrite H2 by exact Hi. cbn. f_equal. }
      assert (Hz1 : zlen (elems al') = n) by (destruct Hwp as (_ & _ & W); cbn [dims elems size al'] in W |- *; lia).
      assert (Hz2 : zlen (elems ar) = n) by (destruct Hwr as (_ & _ & W); rewrite W, Hdr, Hra; cbn; lia).
      replace (inner f g (Arr al') (Arr ar) tt) with (inner f g (Arr (vec (elems al'))) (Arr (vec (elems ar))) tt) by (rewrite <- Ea, <- Er; reflexivity).
      rewrite C38_inner_vectors by (rewrite Hz1, Hz2; reflexivity).
      pose proof (L1 _ al' (elems al') Ea) as M1. pose proof (L1 _ ar (elems ar) Er) as M2. rewrite Hz1 in M1. rewrite Hz2 in M2. rewrite M1, M2 in Ev.
      unfold emap, ebind. rewrite Ev. cbn [fst eret]. exists (Scal v), (mkArr [] [value (line la 0 n []) (line ra 0 n [])]). split; [reflexivity|]. split; [exists (value (line la 0 n []) (line ra 0 n [])); auto|]. split; [reflexivity|].
      intros I J HI' HJ'. clear - HI' HJ'. inversion HI'; inversion HJ'; subst. reflexivity.
    - rewrite (C38_inner_arrays _ _ f g al' ar lr rr n tt Hwp Hwr eq_refl ltac:(rewrite Hdr; exact Hra) Hnil).
      set (zf := fun q : list Z * list Z => value (line la (zlen lr) n (fst q)) (line ra 0 n (snd q))).
      assert (HM : exists l, mapE (fun q => inner_fold f g (combine (line al' (zlen lr) n (fst q)) (line ar 0 n (snd q)))) (list_prod (all_idx lr) (all_idx rr)) tt = (Ok l, tt) /\ dens l (map zf (list_prod (all_idx lr) (all_idx rr)))).
      { assert (G : forall ps, (forall q, In q ps -> inb lr (fst q) /\ inb rr (snd q)) -> exists l, mapE (fun q => inner_fold f g (combine (line al' (zlen lr) n (fst q)) (line ar 0 n (snd q)))) ps tt = (Ok l, tt) /\ dens l (map zf ps)).
        { induction ps as [|q ps IH]; intros Hq; [exists []; split; [reflexivity|constructor]|]. destruct (Hq q (or_introl eq_refl)) as (Q1 & Q2). destruct (HF _ _ Q1 Q2) as (v & Ev & Dv).
          destruct IH as (l & El & Dl); [intros; apply Hq; right; assumption|]. cbn [mapE map]. unfold ebind. rewrite Ev, El. exists (v :: l). split; [reflexivity|]. constructor; assumption. }
        apply G. intros (I & J) HIJ. apply in_prod_iff in HIJ. rewrite !In_all_idx in HIJ. exact HIJ. }
      destruct HM as (l & El & Dl). unfold ebind. rewrite El. cbn [fst eret].
      assert (Hnn1 : Forall (fun d => 0 <= d) lr) by (destruct Hwl as (_ & W & _); rewrite Hdl, Hla in W; apply Forall_app in W; tauto).
      assert (Hnn2 : Forall (fun d => 0 <= d) rr) by (destruct Hwr as (_ & W & _); rewrite Hdr, Hra in W; inversion W; assumption).
      exists (Arr (mkArr (lr ++ rr) l)), (mkArr (lr ++ rr) (map zf (list_prod (all_idx lr) (all_idx rr)))). split; [reflexivity|]. split; [|split; [reflexivity|]].
      + cbn [stands dims elems]. split; [|split; [reflexivity|exact Dl]]. split; [exact Hnil|]. cbn [dims elems]. split; [apply Forall_app; auto|].
        rewrite (Forall2_zlen _ _ _ Dl), zlen_map. unfold zlen. rewrite prod_length, Nat2Z.inj_mul. pose proof (zlen_all_idx lr Hnn1) as Z1. pose proof (zlen_all_idx rr Hnn2) as Z2. unfold zlen in Z1, Z2. rewrite Z1, Z2, size_app. reflexivity.
      + intros I J HI HJ. unfold elem. cbn [dims elems]. rewrite pos_app' by (eapply Forall2_length; exact HI). rewrite znth_map.
        rewrite <- (zlen_all_idx rr Hnn2). rewrite (znth_list_prod (all_idx lr) (all_idx rr) _ _ I J); [reflexivity|apply znth_all_idx; assumption|apply znth_all_idx; assumption].
  Qed.
End P.
