(* P_Decode.v -- proofs about encode and decode. *)
From Coq Require Import Lia.
From Verif Require Import Base M_Array M_Structural Eff M_Operators M_Decode S_Decode.
Open Scope Z_scope.

(* ---------- integers ---------- *)
Lemma product_app a b : product (a ++ b) = product a * product b.
Proof. induction a as [|x a IH]; cbn [app product fold_right]; [rewrite Z.mul_1_l; reflexivity|]. fold (product (a ++ b)). rewrite IH. unfold product. ring. Qed.
Lemma product_pos l : Forall (fun x => 0 < x) l -> 0 < product l.
Proof. induction 1; cbn; [lia|]. fold (product l). nia. Qed.
Lemma product_cons x l : product (x :: l) = x * product l.
Proof. reflexivity. Qed.
Lemma digits_length L N : length (digits L N) = length L.
Proof. induction L; cbn; congruence. Qed.
Lemma digits_snoc l : 0 < l -> forall L N, Forall (fun x => 0 < x) (tl L) -> digits (L ++ [l]) N = digits L (N / l) ++ [N mod l].
Proof.
  intros Hl. induction L as [|x L IH]; intros N H; cbn [app digits].
  - cbn. rewrite Z.div_1_r. reflexivity.
  - cbn in H. rewrite IH.
    + f_equal. rewrite product_app. cbn [product fold_right]. rewrite Z.mul_1_r.
      rewrite (Z.mul_comm (product L)), <- Z.div_div by (pose proof (product_pos L H); lia). reflexivity.
    + destruct L; [constructor|]. inversion H; assumption.
Qed.
Lemma radix_tl L : radix L -> Forall (fun x => 0 < x) (tl L).
Proof. destruct L; cbn; [constructor|tauto]. Qed.

Lemma digits_range L N i l d : Forall (fun x => 0 < x) L -> znth L i = Some l -> znth (digits L N) i = Some d -> 0 <= d < l.
Proof.
  revert i. induction L as [|x L IH]; intros i H Hl Hd; [apply znth_some_range in Hl; zl; lia|].
  inversion H; subst. destruct (Z.eq_dec i 0) as [->|Hi].
  - rewrite znth_cons_0 in *. cbn [digits] in Hd. rewrite znth_cons_0 in Hd. inversion Hl; inversion Hd; subst. apply Z.mod_pos_bound. assumption.
  - pose proof (znth_some_range _ _ _ Hl). cbn [digits] in Hd. rewrite znth_cons_pos in Hl, Hd by lia. eauto.
Qed.
Lemma value_digits L N : Forall (fun x => 0 < x) L -> value L (digits L N) = N mod product L.
Proof.
  induction 1 as [|x L Hx H IH]; cbn [digits value].
  - cbn. rewrite Z.mod_1_r. reflexivity.
  - rewrite IH. rewrite product_cons. pose proof (product_pos L H). rewrite (Z.mul_comm x), Z.rem_mul_r by lia. lia.
Qed.
Lemma mod_div N P l : 0 < P -> 0 < l -> (N mod (l * P)) / P = (N / P) mod l.
Proof.
  intros HP Hl. rewrite (Z.mul_comm l), Z.rem_mul_r by lia.
  rewrite Z.add_comm, Z.mul_comm, Z.div_add_l by lia. rewrite (Z.div_small (N mod P)) by (apply Z.mod_pos_bound; lia). lia.
Qed.

(* ---------- lists ---------- *)
Lemma store_app {A} (pre : list A) x post v i : i = zlen pre -> store (pre ++ x :: post) i v = Ok (pre ++ v :: post).
Proof.
  intros ->. unfold store. zla. pose proof (zlen_nonneg pre). pose proof (zlen_nonneg post).
  replace ((zlen pre <? 0) || (zlen pre + (1 + zlen post) <=? zlen pre)) with false by lia. f_equal.
  apply znth_ext; [zla; reflexivity|]. intros i. zla. intros Hi.
  destruct (Z.eq_dec i (zlen pre)) as [->|Hn].
  - rewrite znth_zupd_same by (zla; lia). rewrite znth_app_r by lia. rewrite Z.sub_diag. reflexivity.
  - rewrite znth_zupd_other by lia. destruct (Z.lt_ge_cases i (zlen pre)).
    + rewrite !znth_app_l by lia. reflexivity.
    + rewrite !znth_app_r by lia. rewrite !znth_cons_pos by lia. reflexivity.
Qed.
Lemma zat_app {A} (pre : list A) x post i : i = zlen pre -> zat (pre ++ x :: post) i = Ok x.
Proof. intros ->. apply zat_ok. rewrite znth_app_r by lia. rewrite Z.sub_diag. reflexivity. Qed.
Lemma zat_app2 {A} (pre : list A) x y post i : i = zlen pre + 1 -> zat (pre ++ x :: y :: post) i = Ok y.
Proof. intros ->. replace (pre ++ x :: y :: post) with ((pre ++ [x]) ++ y :: post) by (rewrite <- app_assoc; reflexivity). apply zat_app. zla. lia. Qed.

Lemma store_0 {A} (x : A) post v : store (x :: post) 0 v = Ok (v :: post).
Proof. exact (store_app [] x post v 0 eq_refl). Qed.
Lemma zat_0 {A} (x : A) post : zat (x :: post) 0 = Ok x.
Proof. exact (zat_app [] x post 0 eq_refl). Qed.
Lemma zat_1 {A} (x y : A) post : zat (x :: y :: post) (0 + 1) = Ok y.
Proof. exact (zat_app2 [] x y post (0 + 1) eq_refl). Qed.

Section P.
  Context {V : Type} (ops : arith V) (den : V -> Z -> Prop) (B : Z) (E : exact_arith ops den B).
  Local Notation dens := (Forall2 den).

  (* ---------- encode: vector, scalar ---------- *)
  Lemma evs_ok : forall k L Ls c N acc, (k <= length L)%nat -> dens Ls L -> radix (firstn k L) -> Forall (fun l => Z.abs l <= B /\ Z.abs N + l <= B) (firstn k L) ->
    den c N -> Z.abs N <= B ->
    exists Z, evs_loop ops Ls k c acc = Ok (Z ++ acc) /\ dens Z (digits (firstn k L) N).
  Proof using E.
    induction k as [|k IH]; intros L Ls c N acc HK HL HR HB Hc HN.
    - exists []. split; [reflexivity|constructor].
    - destruct (znth_in_range L (Z.of_nat k)) as (l & Hl); [unfold zlen; lia|].
      destruct (znth_in_range Ls (Z.of_nat k)) as (x & Hx); [rewrite (Forall2_zlen _ _ _ HL); unfold zlen; lia|].
      pose proof (Forall2_znth _ _ _ HL _ _ _ Hx Hl) as Hd.
      assert (F : firstn (S k) L = firstn k L ++ [l]).
      { unfold znth in Hl. destruct (Z.of_nat k <? 0); [discriminate|]. rewrite Nat2Z.id in Hl. clear - Hl. revert L Hl. induction k as [|k IH]; intros [|y L] Hl; cbn in *; try congruence. rewrite (IH _ Hl). reflexivity. }
      rewrite F in HB, HR. apply Forall_app in HB. destruct HB as (HB & HBl). inversion HBl as [|? ? (Hlb & HNl) _]; subst.
      assert (HR' : radix (firstn k L)).
      { destruct (firstn k L) as [|y r]; [exact Logic.I|]. cbn in HR. destruct HR as (H0 & HR). apply Forall_app in HR. split; [lia|tauto]. }
      assert (Hl0 : 0 <= l).
      { destruct (firstn k L) as [|y r]; cbn in HR; [lia|]. destruct HR as (_ & HR). apply Forall_app in HR. destruct HR as (_ & HR). inversion HR; lia. }
      destruct (ex_mod _ _ _ E x c l N Hd Hc Hl0 HN Hlb) as (v & Ev & Dv).
      pose proof (ex_zerop _ _ _ E x l Hd Hlb) as Ez.
      cbn [evs_loop]. rewrite (proj2 (zat_ok _ _ _) Hx). cbn [obind]. rewrite Ev. cbn [obind]. rewrite Ez. cbn [obind].
      destruct (l =? 0) eqn:Zl.
      + (* a radix 0 is the first *)
        assert (l = 0) by lia. subst l. cbn [obind].
        assert (k = 0%nat).
        { destruct k; [reflexivity|]. destruct L as [|y L]; cbn in HK; [lia|]. cbn [firstn app radix] in HR. destruct HR as (_ & HR). apply Forall_app in HR. destruct HR as (_ & HR). inversion HR; lia. }
        subst k. cbn [firstn app] in *. exists [v]. split; [reflexivity|]. destruct L as [|l0 L]; [discriminate|]. cbn [znth Z.of_nat] in Hl. rewrite znth_cons_0 in Hl. inversion Hl; subst.
        cbn. rewrite Z.div_1_r. constructor; [exact Dv|constructor].
      + assert (Hp : 0 < l) by lia. pose proof (Z.mod_pos_bound N l Hp) as Hm. pose proof (Z.div_mod N l ltac:(lia)) as Dm.
        destruct (ex_sub _ _ _ E c v N (N mod l) Hc Dv HN ltac:(lia) ltac:(lia)) as (d & Ed & Dd). rewrite Ed. cbn [obind].
        replace (N - N mod l) with (N / l * l) in Dd by lia.
        destruct (ex_div _ _ _ E d x (N / l) l Dd Hd Hp ltac:(lia) Hlb) as (q & Eq & Dq). rewrite Eq. cbn [obind].
        assert (Hq : Z.abs (N / l) <= Z.abs N) by nia.
        destruct (IH L Ls q (N / l) (v :: acc) ltac:(lia) HL HR') as (Zs & EZ & DZ).
        * eapply Forall_impl; [|exact HB]. intros a (A1 & A2). lia.
        * exact Dq.
        * lia.
        * exists (Zs ++ [v]). split; [rewrite EZ, <- app_assoc; reflexivity|]. rewrite F, digits_snoc by (auto using radix_tl).
          apply Forall2_app; [exact DZ|constructor; [exact Dv|constructor]].
  Qed.
  Lemma encode_vec_ok Ls L c N : dens Ls L -> radix L -> Forall (fun l => Z.abs l <= B /\ Z.abs N + l <= B) L -> den c N -> Z.abs N <= B ->
    exists Z, encodeVecScalar ops Ls c = Ok (vec1 Z) /\ dens Z (digits L N).
  Proof using E.
    intros HL HR HB Hc HN. unfold encodeVecScalar. rewrite (Forall2_length _ _ _ HL).
    pose proof (evs_ok (length L) L Ls c N []) as H. rewrite firstn_all in H.
    destruct (H (le_n _) HL HR HB Hc HN) as (Z & EZ & DZ). exists Z. rewrite EZ, app_nil_r. split; [reflexivity|exact DZ].
  Qed.

  (* ---------- encode: arrays ---------- *)
  (* the radix vector after powerradix: L0, then the products of the tails *)
  Fixpoint tails (L : list Z) : list Z := match L with [] => [] | l :: L' => product (l :: L') :: tails L' end.
  Definition powered (L : list Z) : list Z := match L with [] => [] | l :: L' => l :: tails L' end.
  Lemma tails_length L : length (tails L) = length L.
  Proof. induction L; cbn; congruence. Qed.
  Lemma powerradix_ok : forall todo pre A T post x0, zlen A = Z.of_nat todo -> dens pre A -> post <> [] \/ todo = 0%nat -> dens post (tails T) ->
    Forall (fun x => 0 < x) (A ++ T) -> product (A ++ T) <= B ->
    exists r, powerradix ops todo (x0 :: pre ++ post) = Ok (x0 :: r) /\ dens r (tails (A ++ T)).
  Proof using E.
    induction todo as [|m IH]; intros pre A T post x0 HA Hp Hne Ht Hpos HB.
    - destruct A; [|zl; pose proof (zlen_nonneg A); lia]. inversion Hp; subst. exists post. split; [reflexivity|exact Ht].
    - destruct (@exists_last _ A) as (A' & a & EA); [intros ->; cbn in HA; lia|]. subst A. rewrite zlen_app in HA. zl.
      apply Forall2_app_inv_r in Hp. destruct Hp as (pre' & pa & Hp' & Hpa & ->). inversion Hpa as [|xa ? ? ? Hxa Hpa']; subst. inversion Hpa'; subst.
      destruct Hne as [Hne|]; [|discriminate]. destruct post as [|q post]; [congruence|]. destruct T as [|t T]; [inversion Ht|].
      cbn [tails] in Ht. inversion Ht as [|? ? ? ? Hq Ht']; subst.
      assert (Hz : zlen (x0 :: pre') = Z.of_nat (S m)) by (zla; rewrite (Forall2_zlen _ _ _ Hp'); lia).
      rewrite <- !app_assoc in *. cbn [app] in *.
      cbn [powerradix]. rewrite !app_comm_cons. rewrite zat_app by lia. cbn [obind]. rewrite zat_app2 by lia. cbn [obind].
      assert (Hpos' : Forall (fun x => 0 < x) (a :: t :: T)) by (apply Forall_app in Hpos; tauto).
      assert (HA' : 0 < product A') by (apply product_pos; apply Forall_app in Hpos; tauto).
      rewrite product_app in HB. pose proof (product_pos _ Hpos') as HP. pose proof HP as HP'. rewrite product_cons in HP'.
      assert (0 < product (t :: T)) by (apply product_pos; inversion Hpos'; assumption). assert (0 < a) by (inversion Hpos'; assumption).
      assert (HAB : product (a :: t :: T) <= B) by nia. rewrite product_cons in HAB.
      destruct (ex_mul _ _ _ E xa q a (product (t :: T)) Hxa Hq) as (v & Ev & Dv); [nia|nia|nia|].
      rewrite Ev. rewrite store_app by lia. cbn [obind]. rewrite <- app_comm_cons.
      destruct (IH pre' A' (a :: t :: T) (v :: q :: post) x0) as (r & Er & Dr); auto.
      + lia.
      + left. discriminate.
      + cbn [tails]. constructor; [exact Dv|]. constructor; [exact Hq|exact Ht'].
      + rewrite product_app. exact HB.
      + exists r. split; [exact Er|exact Dr].
  Qed.
  Lemma powered_ok Ls L : dens Ls L -> radix L -> product (tl L) <= B -> exists r, powerradix ops (length Ls - 2) Ls = Ok r /\ dens r (powered L).
  Proof using E.
    intros HL HR HB. destruct HL as [|x0 l0 Ls L H0 HL]; [exists []; split; [reflexivity|constructor]|]. cbn in HR, HB. destruct HR as (Hl0 & HR).
    destruct (list_eq_dec Z.eq_dec L []) as [->|Hn].
    { inversion HL; subst. exists [x0]. split; [reflexivity|]. cbn. constructor; [exact H0|constructor]. }
    destruct (exists_last Hn) as (A & a & ->). apply Forall2_app_inv_r in HL. destruct HL as (pre & q & Hp & Hq & ->). inversion Hq as [|y ? ? ? Hy Hq']; subst. inversion Hq'; subst.
    destruct (powerradix_ok (length pre) pre A [a] [y] x0) as (r & Er & Dr); auto.
    - rewrite <- (Forall2_zlen _ _ _ Hp). reflexivity.
    - left. discriminate.
    - cbn. constructor; [|constructor]. rewrite Z.mul_1_r. exact Hy.
    - exists (x0 :: r). split; [|cbn [powered]; constructor; assumption]. rewrite <- Er. f_equal. cbn [length]. rewrite app_length. cbn [length]. lia.
  Qed.
  Lemma enc_loop_ok : forall L done rad r N pre post, (exists dl, dens done dl) -> dens rad (tails L) -> Forall (fun x => 0 < x) L -> length post = length L -> zlen pre = zlen done ->
    den r N -> 0 <= N < product L -> product L <= B -> done <> [] ->
    exists vs, enc_loop ops (done ++ rad) (length L) (zlen done) r (pre ++ post) = Ok (pre ++ vs) /\ dens vs (digits L N).
  Proof using E.
    induction L as [|l L IH]; intros done rad r N pre post (dl & Hdl) HT HP Hpost Hpre Hr HN HB Hne.
    - exists post. split; [reflexivity|]. destruct post; [constructor|discriminate].
    - inversion HP as [|? ? Hl HPL]; subst. cbn [tails] in HT. inversion HT as [|t ? rad' ? Dt DT]; subst. destruct post as [|o post]; [discriminate|].
      rewrite product_cons in HN, HB. pose proof (product_pos L HPL) as HPL'. cbn [enc_loop length].
      assert (Hlen : zlen (done ++ t :: rad') = zlen done + 1 + zlen L) by (zla; rewrite (Forall2_zlen _ _ _ DT); unfold zlen; rewrite tails_length; lia).
      rewrite Hlen.
      assert (Hrange : 0 <= N / product L < l) by (split; [apply Z.div_pos; lia|apply Z.div_lt_upper_bound; lia]).
      assert (Hdig : (N / product L) mod l = N / product L) by (apply Z.mod_small; exact Hrange).
      destruct L as [|l' L].
      + change (product []) with 1 in *. change (zlen (@nil Z)) with 0. replace (zlen done <? zlen done + 1 + 0 - 1) with false by lia. cbn [obind].
        destruct (ex_div _ _ _ E r (a_int ops 1) N 1) as (v & Ev & Dv); [rewrite Z.mul_1_r; exact Hr|apply (ex_int _ _ _ E); lia|lia|lia|lia|].
        rewrite Ev. cbn [obind]. rewrite store_app by lia. cbn [obind].
        destruct (ex_mul _ _ _ E v (a_int ops 1) N 1 Dv) as (u & Eu & Du); [apply (ex_int _ _ _ E); lia|lia|lia|lia|].
        rewrite Eu. cbn [obind]. rewrite Z.mul_1_r in Du.
        destruct (ex_sub _ _ _ E r u N N Hr Du) as (r' & Er & Dr); [lia|lia|rewrite Z.sub_diag; lia|].
        rewrite Er. cbn [obind]. exists (v :: post). split; [reflexivity|]. cbn in Hpost. destruct post; [|discriminate].
        cbn [digits]. change (product []) with 1. rewrite Hdig. rewrite Z.div_1_r. constructor; [exact Dv|constructor].
      + zl. pose proof (zlen_nonneg L). replace (zlen done <? zlen done + 1 + (1 + zlen L) - 1) with true by lia.
        cbn [tails] in DT. inversion DT as [|t' ? rad'' ? Dt' DT']; subst. change (den t' (product (l' :: L))) in Dt'. rewrite zat_app2 by lia. cbn [obind].
        destruct (ex_floor _ _ _ E r t' N (product (l' :: L)) Hr Dt' HPL') as (w & v & Ew & Ev & Dv); [nia|nia|].
        rewrite Ew. cbn [obind]. rewrite Ev. cbn [obind]. rewrite store_app by lia. cbn [obind].
        pose proof (Z.div_mod N (product (l' :: L)) ltac:(lia)) as Dm. pose proof (Z.mod_pos_bound N (product (l' :: L)) HPL') as Hm.
        assert (HlB : l <= B) by nia. assert (HPB : product (l' :: L) <= B) by nia. rewrite (Z.mul_comm _ (N / product (l' :: L))) in Dm.
        destruct (ex_mul _ _ _ E v t' _ _ Dv Dt') as (u & Eu & Du); [lia|lia|lia|]. rewrite Eu. cbn [obind].
        destruct (ex_sub _ _ _ E r u _ _ Hr Du) as (r' & Er & Dr); [lia|lia|lia|]. rewrite Er. cbn [obind].
        replace (N - N / product (l' :: L) * product (l' :: L)) with (N mod product (l' :: L)) in Dr by lia.
        destruct (IH (done ++ [t]) (t' :: rad'') r' (N mod product (l' :: L)) (pre ++ [v]) post) as (vs & Evs & Dvs); auto.
        * exists (dl ++ [product (l :: l' :: L)]). apply Forall2_app; [exact Hdl|]. constructor; [exact Dt|constructor].
        * zla. lia.
        * destruct done; discriminate.
        * rewrite <- !app_assoc in Evs. cbn [app] in Evs. rewrite zlen_app in Evs. zlh Evs. rewrite Z.add_0_r in Evs.
          exists (v :: vs). split; [rewrite Evs; f_equal; rewrite <- app_assoc; reflexivity|].
          change (digits (l :: l' :: L) N) with ((N / product (l' :: L)) mod l :: digits (l' :: L) N). rewrite Hdig. constructor; [exact Dv|].
          replace (digits (l' :: L) N) with (digits (l' :: L) (N mod product (l' :: L))); [exact Dvs|].
          clear - HPL HPL'. generalize (l' :: L) HPL. clear. intros K HK.
          (* digits depend on N modulo the product only *)
          assert (G : forall K, Forall (fun x => 0 < x) K -> forall q N, digits K (N + q * product K) = digits K N).
          { clear. induction 1 as [|k K Hk HK IH]; intros q N; [reflexivity|]. cbn [digits]. rewrite product_cons. pose proof (product_pos K HK).
            f_equal.
            - replace (q * (k * product K)) with (q * k * product K) by ring. rewrite Z.div_add by lia. apply Z.mod_add. lia.
            - replace (q * (k * product K)) with (q * k * product K) by ring. apply IH. }
          rewrite <- (G K HK (N / product K) (N mod product K)). f_equal. pose proof (product_pos K HK). pose proof (Z.div_mod N (product K)). lia.
  Qed.
  Lemma digits_mod K q N : Forall (fun x => 0 < x) K -> digits K (N + q * product K) = digits K N.
  Proof.
    intros H. revert q N. induction H as [|k K Hk HK IH]; intros q N; [reflexivity|]. cbn [digits]. rewrite product_cons. pose proof (product_pos K HK).
    f_equal.
    - replace (q * (k * product K)) with (q * k * product K) by ring. rewrite Z.div_add by lia. apply Z.mod_add. lia.
    - replace (q * (k * product K)) with (q * k * product K) by ring. apply IH.
  Qed.
  Lemma enc_ok rad L r N vec : dens rad (powered L) -> radix L -> L <> [] -> length vec = length L -> den r N ->
    Z.abs N + product (tl L) <= B -> Z.abs (hd 0 L) <= B ->
    exists vs, enc ops rad r vec = Ok vs /\ dens vs (digits L N).
  Proof using E.
    intros HD HR Hne Hlen Hr HB Hh. destruct L as [|l L]; [congruence|]. cbn [powered] in HD. inversion HD as [|x ? rad' ? Dx DT]; subst. destruct vec as [|o vec]; [discriminate|].
    cbn [radix tl hd] in HR, HB, Hh. destruct HR as (Hl & HP). pose proof (product_pos L HP) as HPL.
    pose proof (Z.div_mod N (product L) ltac:(lia)) as Dm. pose proof (Z.mod_pos_bound N (product L) HPL) as Hm.
    assert (Hq : Z.abs (N / product L) <= Z.abs N) by nia.
    unfold enc. rewrite (Forall2_length _ _ _ HD). cbn [length]. cbn [enc_loop]. rewrite tails_length.
    assert (Hlr : zlen (x :: rad') = 1 + zlen L) by (zla; rewrite (Forall2_zlen _ _ _ DT); unfold zlen; rewrite tails_length; reflexivity).
    rewrite Hlr.
    assert (Main : exists v vs, (let* p := if 0 <? 1 + zlen L - 1 then zat (x :: rad') (0 + 1) else Ok (a_int ops 1) in
        let* v := a_div ops r p in let* v0 := (if 0 <? 1 + zlen L - 1 then a_floor ops v else Ok v) in
        let* vec0 := store (o :: vec) 0 v0 in let* u := a_mul ops v0 p in let* r0 := a_sub ops r u in enc_loop ops (x :: rad') (length L) (0 + 1) r0 vec0) = Ok (v :: vs)
        /\ den v (N / product L) /\ dens vs (digits L N)).
    { destruct L as [|l' L].
      - change (product []) with 1 in *. change (zlen (@nil Z)) with 0. change (0 <? 1 + 0 - 1) with false. cbv iota. cbn [obind].
        destruct (ex_div _ _ _ E r (a_int ops 1) N 1) as (v & Ev & Dv); [rewrite Z.mul_1_r; exact Hr|apply (ex_int _ _ _ E); lia|lia|lia|lia|].
        rewrite Ev. cbn [obind]. rewrite store_0. cbn [obind app].
        destruct (ex_mul _ _ _ E v (a_int ops 1) N 1 Dv) as (u & Eu & Du); [apply (ex_int _ _ _ E); lia|lia|lia|lia|].
        rewrite Eu. cbn [obind]. rewrite Z.mul_1_r in Du.
        destruct (ex_sub _ _ _ E r u N N Hr Du) as (r' & Er & Dr); [lia|lia|rewrite Z.sub_diag; lia|].
        rewrite Er. cbn [obind length enc_loop]. exists v, vec. split; [reflexivity|]. split; [rewrite Z.div_1_r; exact Dv|]. cbn in Hlen. destruct vec; [constructor|discriminate].
      - zl. pose proof (zlen_nonneg L). replace (0 <? 1 + (1 + zlen L) - 1) with true by lia. cbn [tails] in DT. inversion DT as [|t' ? rad'' ? Dt' DT']; subst. change (den t' (product (l' :: L))) in Dt'.
        rewrite zat_1. cbn [obind].
        destruct (ex_floor _ _ _ E r t' N (product (l' :: L)) Hr Dt' HPL) as (w & v & Ew & Ev & Dv); [lia|lia|].
        rewrite Ew. cbn [obind]. rewrite Ev. cbn [obind]. rewrite store_0. cbn [obind app].
        rewrite (Z.mul_comm _ (N / product (l' :: L))) in Dm.
        destruct (ex_mul _ _ _ E v t' _ _ Dv Dt') as (u & Eu & Du); [lia|lia|lia|]. rewrite Eu. cbn [obind].
        destruct (ex_sub _ _ _ E r u _ _ Hr Du) as (r' & Er & Dr); [lia|lia|lia|]. rewrite Er. cbn [obind].
        replace (N - N / product (l' :: L) * product (l' :: L)) with (N mod product (l' :: L)) in Dr by lia.
        destruct (enc_loop_ok (l' :: L) [x] (t' :: rad'') r' (N mod product (l' :: L)) [v] vec) as (vs & Evs & Dvs); auto.
        + exists [l]. constructor; [exact Dx|constructor].
        + lia.
        + discriminate.
        + cbn [app] in Evs. exists v, vs. split; [exact Evs|]. split; [exact Dv|].
          rewrite <- (digits_mod (l' :: L) (N / product (l' :: L)) (N mod product (l' :: L)) HP) in Dvs.
          replace (N mod product (l' :: L) + N / product (l' :: L) * product (l' :: L)) with N in Dvs by lia. exact Dvs. }
    destruct Main as (v & vs & Em & Dv & Dvs). cbv zeta in Em |- *. rewrite Em. cbn [obind].
    rewrite zat_0. cbn [obind]. rewrite (ex_zerop _ _ _ E x l Dx Hh). cbn [obind].
    destruct (l =? 0) eqn:Zl.
    - assert (l = 0) by lia. subst l. exists (v :: vs). split; [reflexivity|]. cbn [digits]. rewrite Zmod_0_r. constructor; assumption.
    - rewrite zat_0. cbn [obind].
      destruct (ex_mod _ _ _ E x v l (N / product L) Dx Dv Hl) as (d & Ed & Dd); [lia|lia|]. rewrite Ed. cbn [obind].
      rewrite store_0. exists (d :: vs). split; [reflexivity|]. cbn [digits]. constructor; assumption.
  Qed.
End P.
