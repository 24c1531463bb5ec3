(* P_Programs3.v -- (2=+⌿0=X∘.|X)⌿X←⍳n with the numbers of the default tower. *)
From Coq Require Import List Bool ZArith Lia Znumtheory Floats.SpecFloat.
From Verif Require Import Base Eff M_Array S_Array P_Array M_Structural S_Structural P_Structural P_Take M_Number S_Number P_Number P_Tower P_Order M_Scalar P_Scalar M_Search S_Search P_Search M_Reduce S_Reduce P_Reduce M_Operators S_Operators P_Operators
  Prop_Structural Prop_Number Prop_Scalar Prop_Search Prop_Reduce Prop_Operators M_Programs S_Programs P_Programs P_Programs2.
Import ListNotations.
Open Scope list_scope. Open Scope Z_scope.

Section Default.
  Context {C T : Type} (cM : methods C) (tM : methods T) (f2c : SpecFloat.spec_float -> C) (c2t : C -> option T) (has_uniform : ntype -> bool).
  Local Notation M := (dM cM tM).
  Local Notation tw := (dT f2c c2t).
  Local Notation sv := (sval (dnum C T)).
  (* the residue of integers, and whether it is 0 *)
  Definition residue (l r : Z) : sv := VNum (if r mod l =? 0 then NI 0 else NT (DF (f_of_int (r mod l)))).
  Lemma residue_zero l r : 1 <= l <= 2 ^ 52 -> 1 <= r <= 2 ^ 52 -> arith2 M tw (compare M CEq) (int 0) (residue l r) = Ok (VNum (NB (r mod l =? 0))).
  Proof.
    intros Hl Hr. unfold residue. destruct (r mod l =? 0) eqn:E; [reflexivity|].
    pose proof (Z.mod_pos_bound r l ltac:(lia)) as MB. destruct (C50_float_int 0 (r mod l)) as (_ & Q); [lia|lia|].
    assert (F : SFeqb (f_of_int 0) (f_of_int (r mod l)) = false). { apply Bool.not_true_is_false. intros E2. apply Q in E2. lia. }
    eapply (arith2_total M tw (compare M CEq) (NI 0) (NT (DF (f_of_int (r mod l)))) (NT (DF (f_of_int 0))) (NT (DF (f_of_int (r mod l))))).
    - reflexivity.
    - unfold compare, equals. cbn [obind]. change (peq M (DF (f_of_int 0)) (DF (f_of_int (r mod l)))) with (Ok (SFeqb (f_of_int 0) (f_of_int (r mod l)))). rewrite F. reflexivity.
    - eexists. split; [reflexivity|]. cbn. lia.
  Qed.
  Lemma inb1 n q : inb [n] q -> exists j, q = [j] /\ 0 <= j < n.
  Proof. intros H. inversion H as [|? j ? q1 Hj H1]. inversion H1. exists j. split; [reflexivity|exact Hj]. Qed.
  Lemma line0 (E : arr sv) n j (g : Z -> sv) : (forall i, 0 <= i < n -> elem E [i; j] = Some (g i)) -> line E 0 n [j] = map g (zseq n).
  Proof.
    intros H. unfold line. assert (F : Forall (fun i => elem E [i; j] = Some (g i)) (zseq n)) by (apply Forall_forall; intros i Hi; apply In_zseq in Hi; apply H; lia).
    induction F as [|i l Hi F IH]; [reflexivity|]. cbn [flat_map map]. unfold ins at 1. cbn [Z.to_nat firstn skipn app]. rewrite Hi. cbn [app]. f_equal. exact IH.
  Qed.
  Lemma count_sum (h : Z -> bool) l : sumZ (map (fun d => if h d then 1 else 0) l) = zlen (filter h l).
  Proof. induction l as [|d l IH]; [reflexivity|]. cbn [map sumZ fold_right filter]. fold (sumZ (map (fun d => if h d then 1 else 0) l)). rewrite IH. destruct (h d); [rewrite zlen_cons; lia|lia]. Qed.

  Lemma primes_runs n : 1 <= n <= 2 ^ 52 -> primes M tw has_uniform n = Ok (Arr (vec (map int (filter (fun p => zlen (divisors n p) =? 2) (from 1 n))))).
  Proof.
    intros Hn. unfold primes. rewrite iota_ok by lia. cbn [obind]. set (ks := from 1 n). set (X := vec (map int ks)).
    assert (WX : wf X) by apply wf_vec. assert (Lk : zlen ks = n) by (apply zlen_from; lia).
    unfold pure at 1. rewrite C39_outer_arrays by exact WX. unfold ebind at 1.
    rewrite (mapE_ok_pure _ (fun p => match p with (VNum (NI a), VNum (NI b)) => residue a b | _ => int 0 end)).
    2:{ intros [x y] s Hp. apply in_prod_iff in Hp. destruct Hp as [Hx Hy]. unfold X, vec in Hx, Hy. cbn [elems] in Hx, Hy. apply in_map_iff in Hx, Hy. destruct Hx as (a & <- & Ha). destruct Hy as (b & <- & Hb).
        apply In_from in Ha, Hb. unfold op2, elift. cbn [fst snd]. unfold int. rewrite C49_default by lia. reflexivity. }
    unfold eret at 1. cbn [fst obind]. set (Tb := mkArr _ _).
    assert (DT : dims Tb = [n; n]) by (unfold Tb, X, vec; cbn [dims app]; rewrite zlen_map, Lk; reflexivity).
    assert (ET : forall i j, 0 <= i < n -> 0 <= j < n -> elem Tb [i; j] = Some (residue (1 + i) (1 + j))).
    { intros i j Hi Hj. unfold elem. rewrite DT. cbn [pos size]. unfold Tb. cbn [elems]. rewrite znth_map.
      replace (i * (n * 1) + (j * 1 + 0)) with (i * zlen (elems X) + j) by (unfold X, vec; cbn [elems]; rewrite zlen_map, Lk; lia).
      rewrite (znth_list_prod (elems X) (elems X) i j (int (1 + i)) (int (1 + j))).
      - reflexivity.
      - unfold X, vec. cbn [elems]. rewrite znth_map. unfold ks. rewrite znth_from by lia. reflexivity.
      - unfold X, vec. cbn [elems]. rewrite znth_map. unfold ks. rewrite znth_from by lia. reflexivity. }
    assert (WT : wf Tb).
    { repeat split; [rewrite DT; discriminate|rewrite DT; repeat constructor; lia|]. rewrite DT. unfold Tb. cbn [elems size]. rewrite zlen_map. unfold zlen. rewrite prod_length. unfold X, vec. cbn [elems]. rewrite !map_length.
      unfold zlen in Lk. rewrite Nat2Z.inj_mul, Lk. lia. }
    destruct (dy_left M tw has_uniform (eq_ M) (int 0) Tb (fun p => match p with [i; j] => VNum (NB ((1 + j) mod (1 + i) =? 0)) | _ => int 0 end) WT) as (E & -> & WE & DE & EE); [apply WT| |].
    { rewrite DT. intros p Hp. apply inb2 in Hp. destruct Hp as (i & j & -> & Hi & Hj). exists (residue (1 + i) (1 + j)). split; [apply ET; assumption|]. apply residue_zero; lia. }
    cbn [obind]. rewrite DT in DE, EE.
    assert (LE : forall j, 0 <= j < n -> Forall2 isint (map (fun i => VNum (P:=dnum C T) (NB ((1 + j) mod (1 + i) =? 0))) (zseq n)) (map (fun d => if (1 + j) mod d =? 0 then 1 else 0) (from 1 n))).
    { intros j Hj. unfold from. rewrite map_map. clear. induction (zseq n) as [|i l IH]; [constructor|]. cbn [map]. constructor; [apply isint_bool|exact IH]. }
    assert (RW : exists W, pure (reduct (op2 M tw (plus M)) (Some (int 0)) (Arr E) 0) = Ok (Arr W) /\ wf W /\ dims W = [n] /\
                 forall j, 0 <= j < n -> exists v, elem W [j] = Some v /\ isint v (zlen (divisors n (1 + j)))).
    { unfold pure. assert (C1 : n = 1 \/ 2 <= n) by lia. destruct C1 as [C1|C1].
      - destruct (C32_reduce_axis_length_one unit sv (op2 M tw (plus M)) (Some (int 0)) E 0 0 Datatypes.tt WE) as (W & -> & WW & DW & HW).
        { rewrite DE. cbn. lia. } { rewrite DE. reflexivity. } { rewrite DE, C1. reflexivity. } { rewrite DE, C1. cbn. lia. }
        exists W. split; [reflexivity|]. split; [exact WW|]. rewrite DE in DW, HW. cbn in DW. split; [exact DW|]. intros j Hj.
        eexists. split; [rewrite HW by (cbn; repeat constructor; lia); cbn; apply EE; apply inb2_intro; lia|].
        assert (j = 0) by lia. subst j. rewrite C1. exact (isint_bool true).
      - rewrite (C32_reduce_axis unit sv (op2 M tw (plus M)) (Some (int 0)) E 0 0 n Datatypes.tt WE); [|rewrite DE; cbn; lia|rewrite DE; reflexivity|rewrite DE; reflexivity|exact C1].
        rewrite DE. change (del 0 [n; n]) with [n]. unfold ebind.
        rewrite (mapE_ok_pure _ (fun q => match q with [j] => int (zlen (divisors n (1 + j))) | _ => int 0 end)).
        2:{ intros q [] Hq. apply In_all_idx in Hq. destruct (inb1 _ _ Hq) as (j & -> & Hj).
            rewrite (line0 E n j (fun i => VNum (NB ((1 + j) mod (1 + i) =? 0)))) by (intros i Hi; rewrite EE by (apply inb2_intro; lia); reflexivity).
            destruct (fold_sum M tw 1 _ _ (LE j Hj)) as (v & Ev & _ & Iv).
            - intros N0. apply (f_equal (@zlen _)) in N0. rewrite zlen_map, zlen_zseq in N0 by lia. cbn in N0. lia.
            - apply Forall_forall. intros x Hx. apply in_map_iff in Hx. destruct Hx as (d & <- & _). destruct ((1 + j) mod d =? 0); lia.
            - rewrite zlen_map, zlen_from by lia. lia.
            - rewrite Ev, Iv by (rewrite zlen_map, zlen_zseq; lia). rewrite count_sum. reflexivity. }
        unfold eret. cbn [fst]. eexists. split; [reflexivity|]. split; [apply wf_build; [discriminate|repeat constructor; lia]|]. split; [reflexivity|].
        intros j Hj. eexists. split; [apply elem_build; repeat constructor; lia|]. apply isint_int. }
    destruct RW as (W & -> & WW & DW & HW). cbn [obind].
    destruct (dy_left M tw has_uniform (eq_ M) (int 2) W (fun p => match p with [j] => VNum (NB (2 =? zlen (divisors n (1 + j)))) | _ => int 0 end) WW) as (B & -> & WB & DB & HB); [apply WW| |].
    { rewrite DW. intros p Hp. destruct (inb1 _ _ Hp) as (j & -> & Hj). destruct (HW j Hj) as (v & Ev & Iv). exists v. split; [exact Ev|]. unfold eq_. apply eq_ints; [apply isint_int|exact Iv]. }
    cbn [obind]. rewrite DW in DB, HB. apply select_marked; [exact WB|rewrite Lk; exact DB|]. intros j k Hk. pose proof (znth_some_range _ _ _ Hk) as Rj. rewrite Lk in Rj.
    unfold ks in Hk. rewrite znth_from in Hk by exact Rj. injection Hk as <-. rewrite HB by (repeat constructor; lia). do 3 f_equal. apply Z.eqb_sym.
  Qed.
End Default.
