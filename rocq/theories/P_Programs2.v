(* P_Programs2.v -- lemmas for the prime number programs of M_Programs. *)
From Coq Require Import List Bool ZArith Lia Znumtheory Sorted Floats.SpecFloat.
From Verif Require Import Base Eff M_Array S_Array P_Array M_Structural S_Structural P_Structural P_Take M_Number S_Number P_Number P_Tower M_Scalar P_Scalar M_Search S_Search P_Search M_Reduce S_Reduce P_Reduce M_Operators S_Operators P_Operators
  Prop_Structural Prop_Number Prop_Scalar Prop_Search Prop_Reduce Prop_Operators M_Programs S_Programs P_Programs.
Import ListNotations.
Open Scope list_scope. Open Scope Z_scope.

(* ---------- primes by counting ---------- *)
Definition from (o n : Z) : list Z := map (fun i => o + i) (zseq n).
Lemma In_from o n k : In k (from o n) <-> o <= k < o + n.
Proof.
  unfold from. rewrite in_map_iff. split; [intros (i & <- & Hi); apply In_zseq in Hi; lia|]. intros H. exists (k - o). split; [lia|]. apply In_zseq. lia.
Qed.
Lemma NoDup_from o n : NoDup (from o n).
Proof. unfold from. apply FinFun.Injective_map_NoDup; [intros x y E; lia|apply NoDup_zseq]. Qed.
Lemma zlen_from o n : 0 <= n -> zlen (from o n) = n.
Proof. intros H. unfold from. rewrite zlen_map, zlen_zseq. lia. Qed.
Lemma znth_from o n i : 0 <= i < n -> znth (from o n) i = Some (o + i).
Proof. intros H. unfold from. rewrite znth_map, znth_zseq by exact H. reflexivity. Qed.
Definition divisors (n p : Z) : list Z := filter (fun d => p mod d =? 0) (from 1 n).
Lemma In_divisors n p d : In d (divisors n p) <-> 1 <= d <= n /\ (d | p).
Proof.
  unfold divisors. rewrite filter_In, In_from. split.
  - intros [H1 H2]. split; [lia|]. apply Z.mod_divide; lia.
  - intros [H1 H2]. split; [lia|]. apply Z.eqb_eq. apply Z.mod_divide; [lia|exact H2].
Qed.
Lemma prime_two n p : 1 <= p <= n -> (length (divisors n p) = 2%nat <-> prime p).
Proof.
  intros Hp. assert (ND : NoDup (divisors n p)) by (apply NoDup_filter, NoDup_from). split.
  - intros E. apply prime_alt. split.
    + destruct (Z.eq_dec p 1) as [->|]; [|lia]. exfalso. assert (L : (length (divisors n 1) <= length [1%Z])%nat).
      { apply NoDup_incl_length; [exact ND|]. intros d Hd. apply In_divisors in Hd. left. destruct Hd as [Hd [k Hk]]. assert (d = 1 \/ d = -1) by (apply Z.divide_1_r; exists k; lia). lia. }
      cbn [length] in L. lia.
    + intros d Hd Dv. assert (L : (length [1%Z; d; p] <= length (divisors n p))%nat).
      { apply NoDup_incl_length.
        - repeat constructor; cbn; lia.
        - intros x [<-|[<-|[<-|[]]]]; apply In_divisors; (split; [lia|]); [apply Z.divide_1_l|exact Dv|apply Z.divide_refl]. }
      cbn [length] in L. lia.
  - intros Pr. pose proof (prime_ge_2 p Pr) as P2. apply Nat.le_antisymm.
    + change 2%nat with (length [1%Z; p]). apply NoDup_incl_length; [exact ND|]. intros d Hd. apply In_divisors in Hd. destruct Hd as [Hd Dv].
      destruct (prime_divisors p Pr d Dv) as [E|[E|[E|E]]]; cbn; lia.
    + change 2%nat with (length [1%Z; p]). apply NoDup_incl_length; [repeat constructor; cbn; lia|]. intros d [<-|[<-|[]]]; apply In_divisors; (split; [lia|]); [apply Z.divide_1_l|apply Z.divide_refl].
Qed.
Lemma prime_products m p : 2 <= p < m -> (prime p <-> ~ exists a b, 2 <= a < m /\ 2 <= b < m /\ p = a * b).
Proof.
  intros Hp. split.
  - intros Pr (a & b & Ha & Hb & E). destruct (prime_divisors p Pr a) as [F|[F|[F|F]]]; [exists b; lia|nia|nia|nia|nia].
  - intros N0. apply prime_alt. split; [lia|]. intros d Hd [k Hk]. apply N0. exists d, k. assert (1 < k) by nia. assert (k < p) by nia. repeat split; nia.
Qed.
Lemma filter_ascending (h : Z -> bool) o n i j x y : i < j -> znth (filter h (from o n)) i = Some x -> znth (filter h (from o n)) j = Some y -> x < y.
Proof.
  assert (SS : StronglySorted Z.lt (filter h (from o n))).
  { assert (S1 : StronglySorted Z.lt (from o n)).
    { unfold from, zseq. generalize (Z.to_nat n) as m. intros m. generalize 0%nat as s. induction m as [|m IH]; intros s; cbn [seq map]; constructor; [apply IH|].
      apply Forall_forall. intros k Hk. rewrite map_map in Hk. apply in_map_iff in Hk. destruct Hk as (q & <- & Hq). apply in_seq in Hq. lia. }
    induction S1 as [|a l S1 IH F]; [constructor|]. cbn [filter]. destruct (h a); [|exact IH]. constructor; [exact IH|]. apply Forall_forall. intros k Hk. apply filter_In in Hk. rewrite Forall_forall in F. apply F, Hk. }
  revert i j. induction SS as [|a l SS IH F]; intros i j Hij Hx Hy; [destruct (znth_some_range _ _ _ Hx) as [_ C]; rewrite zlen_nil in C; pose proof (znth_some_range _ _ _ Hx); lia|].
  pose proof (znth_some_range _ _ _ Hx) as Ri. assert (E : i = 0 \/ 0 < i) by lia. destruct E as [->|E].
  - rewrite znth_cons_0 in Hx. injection Hx as <-. rewrite znth_cons_pos in Hy by lia. rewrite Forall_forall in F. apply F. eapply znth_In, Hy.
  - rewrite znth_cons_pos in Hx by lia. rewrite znth_cons_pos in Hy by lia. eapply IH; [|exact Hx|exact Hy]. lia.
Qed.

Section Programs.
  Context {P : Type} (M : methods P) (t : tower P) (has_uniform : ntype -> bool).
  Local Notation sv := (sval P).
  Lemma iota_ok o n : 0 < n -> iota o n = Ok (Arr (vec (map (@int P) (from o n)))).
  Proof.
    intros H. unfold iota. destruct (C22_interval o n) as (_ & _ & HI). destruct (HI H) as ([ds es] & -> & D & Z0 & E). cbn [dims elems] in *. subst ds. cbn [obind].
    assert (Eq : es = from o n). { apply znth_ext; [rewrite zlen_from; lia|]. intros i Hi. rewrite E, znth_from by lia. reflexivity. }
    subst es. unfold amap, vec. cbn [dims elems]. rewrite zlen_map, Z0. reflexivity.
  Qed.
  (* the elements of a vector that are marked with 1 *)
  Lemma select_marked (h : Z -> bool) ks (b : arr sv) : wf b -> dims b = [zlen ks] -> (forall j k, znth ks j = Some k -> elem b [j] = Some (VNum (NB (h k)))) ->
    (let* K := indexes M (Arr b) in Replicate (int 0) K (Arr (vec (map (@int P) ks))) 0) = Ok (Arr (vec (map (@int P) (filter h ks)))).
  Proof.
    intros W D H. destruct b as [ds es]. cbn [dims] in D. subst ds.
    assert (Eq : es = map (fun k => VNum (NB (h k))) ks).
    { destruct W as (_ & _ & W). cbn [elems dims size] in W. apply znth_ext; [rewrite zlen_map; lia|]. intros i Hi. rewrite znth_map.
      destruct (znth ks i) as [k|] eqn:Ek; [|apply znth_none in Ek; lia]. specialize (H i k Ek). unfold elem in H. cbn [elems dims pos size] in H. replace (i * 1 + 0) with i in H by lia. exact H. }
    subst es. unfold indexes. cbn [elems dims].
    assert (EI : mapM (as_index M) (map (fun k => VNum (NB (h k))) ks) = Ok (map (fun k => if h k then 1 else 0) ks)).
    { clear. induction ks as [|k ks IH]; [reflexivity|]. cbn [map mapM]. rewrite IH. destruct (h k); reflexivity. }
    rewrite EI. cbn [obind]. set (cs := map (fun k => if h k then 1 else 0) ks).
    assert (Lc : zlen cs = zlen ks) by (unfold cs; rewrite zlen_map; reflexivity). rewrite <- Lc. fold (vec cs).
    rewrite C36_replicate_vector by (try lia; rewrite zlen_map; lia).
    rewrite <- (C36_replicate_vector _ _ _ _ (-1)) by (try lia; rewrite zlen_map; lia).
    rewrite C36_compress by (try (rewrite zlen_map; lia); unfold bools, cs; apply Forall_forall; intros x Hx; apply in_map_iff in Hx; destruct Hx as (k & <- & _); destruct (h k); lia).
    do 3 f_equal. unfold cs. clear. induction ks as [|k ks IH]; [reflexivity|]. cbn [map combine filter fst]. destruct (h k); [change (1 =? 1) with true|change (0 =? 1) with false]; cbv iota; cbn [map snd]; rewrite IH; reflexivity.
  Qed.

  (* ---------- (~X∊X∘.×X)⌿X←2↓⍳n ---------- *)
  Lemma same_ints x y : same M t (int x) (int y) = (x =? y).
  Proof. unfold same, isEqual. cbn. destruct (x =? y) eqn:E; [reflexivity|]. cbn; rewrite ?E; reflexivity. Qed.
  Definition composite (n p : Z) : bool := existsb (fun ab => p =? fst ab * snd ab) (list_prod (from 2 (n - 2)) (from 2 (n - 2))).
  Lemma sieve_runs n : 3 <= n <= 2 ^ 31 -> sieve M t has_uniform n = Ok (Arr (vec (map (@int P) (filter (fun p => negb (composite n p)) (from 2 (n - 2)))))).
  Proof.
    intros Hn. unfold sieve. rewrite iota_ok by lia. cbn [obind].
    change (mkArr [1] [2]) with (vec [2]). rewrite drop_vec by lia. replace (0 <=? 2) with true by lia.
    assert (Ed : skipn (Z.to_nat 2) (map (@int P) (from 0 n)) = map (@int P) (from 2 (n - 2))).
    { apply znth_ext.
      - rewrite zlen_map, zlen_from by lia. unfold zlen. rewrite skipn_length, map_length. fold (zlen (from 0 n)). pose proof (zlen_from 0 n ltac:(lia)) as Z0. unfold zlen in Z0. lia.
      - intros i Hi. rewrite znth_skipn by lia. unfold zlen in Hi. rewrite skipn_length, map_length in Hi. pose proof (zlen_from 0 n ltac:(lia)) as Z0. unfold zlen in Z0.
        rewrite !znth_map, !znth_from by lia. cbn [option_map]. do 2 f_equal. lia. }
    rewrite Ed. cbn [obind]. set (ks := from 2 (n - 2)). set (X := vec (map (@int P) ks)).
    assert (WX : wf X) by apply wf_vec. assert (Lk : zlen ks = n - 2) by (apply zlen_from; lia).
    unfold pure. rewrite C39_outer_arrays by exact WX. unfold ebind.
    rewrite (mapE_ok_pure _ (fun p => match p with (VNum (NI a), VNum (NI b)) => int (a * b) | _ => int 0 end)).
    2:{ intros [x y] s Hp. apply in_prod_iff in Hp. destruct Hp as [Hx Hy]. unfold X, vec in Hx, Hy. cbn [elems] in Hx, Hy. apply in_map_iff in Hx, Hy. destruct Hx as (a & <- & Ha). destruct Hy as (b & <- & Hb).
        apply In_from in Ha, Hb. unfold op2, elift. cbn [fst snd]. rewrite (mul_ints M t (int a) (int b) a b (isint_int a) (isint_int b)); [reflexivity|]. unfold fits. nia. }
    unfold eret. cbn [fst obind]. set (T := mkArr _ _).
    assert (ET : elems T = map (fun ab => int (fst ab * snd ab)) (list_prod ks ks)).
    { unfold T, X, vec. cbn [elems]. clear. generalize ks at 2 4 as l2. intros l2. generalize ks as l1. induction l1 as [|a l1 IH]; [reflexivity|]. cbn [map list_prod]. rewrite !map_app, IH. f_equal. rewrite !map_map. apply map_ext. reflexivity. }
    destruct (C24_membership sv (same M t) (Arr T)) as (HM & _). destruct (HM X WX) as (m & Em & Wm & Dm & Hm). rewrite Em. cbn [obind].
    assert (Wb : wf (amap (fun b => VNum (P:=P) (NB b)) m)). { destruct Wm as (W1 & W2 & W3). repeat split; cbn; [exact W1|exact W2|rewrite zlen_map; exact W3]. }
    assert (Db : dims m = [zlen ks]) by (rewrite Dm; unfold X, vec; cbn [dims]; rewrite zlen_map; reflexivity).
    destruct (yields_value (dims m) (fun idx => VNum (NB (match elem m idx with Some b => negb b | None => true end)))
      (scalar1 M t has_uniform (arith1 M t (logicalNot M)) (Arr (amap (fun b => VNum (NB b)) m)))) as (N & EN & WN & DN & HN).
    { apply Wm. }
    { change (dims m) with (dims (amap (fun b => VNum (P:=P) (NB b)) m)). apply C45_monadic; [exact Wb|]. intros idx Hi. cbn [amap dims] in Hi. destruct (elem_some m idx Wm Hi) as (b & Eb). exists (VNum (NB b)). split.
      - unfold elem, amap in *. cbn [elems dims]. rewrite znth_map, Eb. reflexivity.
      - rewrite Eb. unfold arith1. cbn. destruct b; reflexivity. }
    unfold not_. rewrite EN. cbn [obind]. apply select_marked; [exact WN|congruence|]. intros j k Hk. pose proof (znth_some_range _ _ _ Hk) as Rj.
    assert (Ij : inb [zlen ks] [j]) by (repeat constructor; lia). rewrite HN by (rewrite Db; exact Ij). do 3 f_equal.
    destruct (Hm [j] (int k)) as (b & Eb & Ib); [rewrite <- Dm, Db; exact Ij|unfold elem, X, vec; cbn [elems dims pos size]; rewrite znth_map; replace (j * 1 + 0) with j by lia; rewrite Hk; reflexivity|].
    rewrite Eb. f_equal. apply Bool.eq_iff_eq_true. rewrite Ib. cbn [elements]. rewrite ET. unfold composite. fold ks. rewrite existsb_exists. split.
    - intros (y & Hy & Sy). apply in_map_iff in Hy. destruct Hy as (ab & <- & Hab). rewrite same_ints in Sy. exists ab. split; assumption.
    - intros (ab & Hab & Sy). exists (int (fst ab * snd ab)). split; [apply in_map_iff; exists ab; split; [reflexivity|exact Hab]|]. rewrite same_ints. exact Sy.
  Qed.
End Programs.
