(* P_Decode2.v -- encode of arrays: where the digits are stored; decode. *)
From Coq Require Import Lia.
From Verif Require Import Base M_Array S_Array P_Array M_Structural S_Reduce Eff M_Operators S_Operators P_Operators M_Decode S_Decode P_Decode.
Open Scope Z_scope.

Lemma mul_add_inj n a b c d : 0 <= b < n -> 0 <= d < n -> a * n + b = c * n + d -> a = c /\ b = d.
Proof. intros H1 H2 E. assert (a = c) by nia. subst. lia. Qed.

Section P.
  Context {V : Type} (ops : arith V) (den : V -> Z -> Prop) (B : Z) (E : exact_arith ops den B).
  Local Notation dens := (Forall2 den).

  Lemma put_ok n off D : 0 <= off < n -> forall (vec : list V) i res, 0 <= i -> i + zlen vec <= D -> zlen res = D * n ->
    exists res', put vec i n off res = Ok res' /\ zlen res' = zlen res /\
      (forall k, 0 <= k < zlen vec -> znth res' ((i + k) * n + off) = znth vec k) /\
      (forall d j, 0 <= j < n -> j <> off \/ d < i -> znth res' (d * n + j) = znth res (d * n + j)).
  Proof.
    intros Ho. induction vec as [|v vec IH]; intros i res Hi HD Hr; cbn [put].
    - exists res. repeat split; intros; auto; zl; lia.
    - zl. pose proof (zlen_nonneg vec). unfold store. replace ((i * n + off <? 0) || (zlen res <=? i * n + off)) with false by nia. cbn [obind].
      destruct (IH (i + 1) (zupd res (i * n + off) v)) as (res' & Er & Hl & H1 & H2); [lia|lia|rewrite zlen_zupd; exact Hr|].
      exists res'. rewrite Er. rewrite zlen_zupd in Hl. split; [reflexivity|]. split; [exact Hl|]. split.
      + intros k Hk. zlh Hk. destruct (Z.eq_dec k 0) as [->|Hk0].
        * rewrite Z.add_0_r, H2 by lia. rewrite znth_zupd_same by nia. reflexivity.
        * rewrite znth_cons_pos by lia. rewrite <- (H1 (k - 1)) by lia. f_equal. lia.
      + intros d j Hj Hd. rewrite H2 by lia. apply znth_zupd_other. intros X. apply mul_add_inj in X; lia.
  Qed.

  (* the columns of the result that are done *)
  Definition done (Col : Z -> list Z) (n NN off : Z) (st : list V * list V) : Prop :=
    zlen (fst st) = n /\ zlen (snd st) = n * NN /\
    forall d j, 0 <= d < n -> 0 <= j < off -> exists v z, znth (snd st) (d * NN + j) = Some v /\ znth (Col j) d = Some z /\ den v z.
  Lemma apply_ok Col n NN off st rad L r N : done Col n NN off st -> 0 <= off < NN ->
    dens rad (powered L) -> radix L -> L <> [] -> zlen L = n -> den r N -> Z.abs N + product (tl L) <= B -> Z.abs (hd 0 L) <= B ->
    Col off = digits L N ->
    exists st', apply ops rad r NN off st = Ok st' /\ done Col n NN (off + 1) st'.
  Proof using E.
    intros (Hv & Hr & HC) Ho Hrad HR Hne Hn Hd HB Hh HCol. destruct st as [vec res]. cbn [fst snd] in *.
    destruct (enc_ok ops den B E rad L r N vec Hrad HR Hne) as (vs & Ev & Dv); auto; [unfold zlen in *; lia|].
    unfold apply. rewrite Ev. cbn [obind].
    assert (Hvs : zlen vs = n) by (rewrite (Forall2_zlen _ _ _ Dv); unfold zlen in *; rewrite digits_length; lia).
    destruct (put_ok NN off n Ho vs 0 res) as (res' & Er & Hl & H1 & H2); [lia|lia|exact Hr|]. rewrite Er. cbn [obind].
    eexists. split; [reflexivity|]. split; [exact Hvs|]. split; [cbn [snd]; lia|]. cbn [snd]. intros d j Hd' Hj.
    destruct (Z.eq_dec j off) as [->|Hjo].
    - specialize (H1 d ltac:(lia)). rewrite Z.add_0_l in H1. destruct (znth_in_range vs d) as (v & Hv'); [lia|].
      destruct (znth_in_range (digits L N) d) as (z & Hz); [unfold zlen; rewrite digits_length; unfold zlen in *; lia|].
      exists v, z. rewrite HCol. split; [congruence|]. split; [exact Hz|]. eapply Forall2_znth; eassumption.
    - destruct (HC d j Hd' ltac:(lia)) as (v & z & A1 & A2 & A3). exists v, z. rewrite H2 by lia. auto.
  Qed.
  Lemma apply_all_ok Col n NN rad L : dens rad (powered L) -> radix L -> L <> [] -> zlen L = n -> Z.abs (hd 0 L) <= B ->
    forall rs Ns off st, dens rs Ns -> done Col n NN off st -> 0 <= off -> off + zlen rs <= NN ->
    Forall (fun N => Z.abs N + product (tl L) <= B) Ns -> (forall k N, znth Ns k = Some N -> Col (off + k) = digits L N) ->
    exists st', apply_all ops rad rs NN off st = Ok st' /\ done Col n NN (off + zlen rs) st'.
  Proof using E.
    intros Hrad HR Hne Hn Hh. induction rs as [|r rs IH]; intros Ns off st HD Hst Ho HN HB HC.
    - exists st. rewrite zlen_nil, Z.add_0_r. auto.
    - inversion HD as [|? N ? Ns' Dr DN]; subst. inversion HB as [|? ? HB1 HB2]; subst. zlh HN. pose proof (zlen_nonneg rs).
      destruct (apply_ok Col (zlen L) NN off st rad L r N) as (st1 & E1 & D1); auto; [lia|rewrite <- (Z.add_0_r off); apply HC; reflexivity|].
      cbn [apply_all]. rewrite E1. cbn [obind].
      destruct (IH Ns' (off + 1) st1 DN D1) as (st2 & E2 & D2); auto; [lia|lia|..].
      + intros k N' Hk. pose proof (znth_some_range _ _ _ Hk). replace (off + 1 + k) with (off + (1 + k)) by lia. apply HC. rewrite znth_cons_pos by lia. replace (1 + k - 1) with k by lia. exact Hk.
      + exists st2. split; [exact E2|]. zla. replace (off + (1 + zlen rs)) with (off + 1 + zlen rs) by lia. exact D2.
  Qed.
  Lemma enc_cols_ok Col n NN NL (al : arr V) (Lc : Z -> list Z) rs Ns : 0 < n ->
    dens rs Ns -> NN = NL * zlen rs ->
    (forall i, 0 <= i < NL -> exists Ls, mapM (fun k => At al (k * NL + i)) (zseq n) = Ok Ls /\ dens Ls (Lc i) /\ radix (Lc i) /\
        Z.abs (hd 0 (Lc i)) <= B /\ Forall (fun N => Z.abs N + product (tl (Lc i)) <= B) Ns /\ product (tl (Lc i)) <= B) ->
    (forall i k N, 0 <= i < NL -> znth Ns k = Some N -> Col (i * zlen rs + k) = digits (Lc i) N) ->
    forall todo i st, i + Z.of_nat todo = NL -> 0 <= i -> done Col n NN (i * zlen rs) st ->
    exists st', enc_cols ops al n NL todo i rs NN (i * zlen rs) st = Ok st' /\ done Col n NN NN st'.
  Proof using E.
    intros Hn HD HNN HL HC. induction todo as [|m IH]; intros i st Hi H0 Hst; cbn [enc_cols].
    - exists st. split; [reflexivity|]. rewrite HNN at 2. replace NL with i by lia. exact Hst.
    - destruct (HL i ltac:(lia)) as (Ls & EL & DL & HR & Hh & HB & HP).
      assert (Hlen : zlen Ls = n) by (unfold zlen; rewrite (mapM_length _ _ _ EL); pose proof (zlen_zseq n) as Z1; unfold zlen in Z1; lia).
      rewrite EL. cbn [obind].
      destruct (powered_ok ops den B E Ls (Lc i) DL HR HP) as (rad & Er & Dr). rewrite Er. cbn [obind].
      assert (HLn : zlen (Lc i) = n) by (rewrite <- (Forall2_zlen _ _ _ DL); exact Hlen).
      pose proof (zlen_nonneg rs).
      destruct (apply_all_ok Col n NN rad (Lc i) Dr HR ltac:(intros X; rewrite X in HLn; cbn in HLn; lia) HLn Hh rs Ns (i * zlen rs) st HD Hst) as (st1 & E1 & D1); auto; [nia|nia|intros; apply HC; auto; lia|].
      rewrite E1. cbn [obind]. replace (i * zlen rs + zlen rs) with ((i + 1) * zlen rs) in * by ring. apply IH; auto; lia.
  Qed.
End P.
