(* P_Format3.v -- reading the texts of arrays, whole and by cells; the texts of elements. *)
From Verif Require Import Base M_Array S_Array P_Array M_Scan S_Scan P_Scan M_Strings M_Format S_Format P_Format P_Format2.
From Coq Require Import Lia.

Lemma no_leading_suffix : forall s, pos_dims s -> s <> [] -> no_leading_ones s = suffix (S (length (seen s))) s.
Proof.
  induction s as [|d s IH]; intros P N; [congruence|]. inversion P as [|? ? Hd Ps]; subst.
  destruct s as [|d' s]; [cbn; destruct (2 <=? d); reflexivity|].
  change (no_leading_ones (d :: d' :: s)) with (if d =? 1 then no_leading_ones (d' :: s) else d :: d' :: s).
  change (seen (d :: d' :: s)) with (if 2 <=? d then d' :: s else seen (d' :: s)).
  destruct (d =? 1) eqn:Q.
  - replace (2 <=? d) with false by lia. destruct (seen_len (d' :: s)) as (_ & L). specialize (L ltac:(discriminate)).
    rewrite suffix_cons by lia. apply IH; [exact Ps|discriminate].
  - replace (2 <=? d) with true by lia. change (S (length (d' :: s))) with (length (d :: d' :: s)). rewrite suffix_all. reflexivity.
Qed.
Lemma seen_size : forall s, pos_dims s -> s <> [] -> seen s <> [] -> size (seen s) < size s.
Proof.
  induction s as [|d s IH]; intros P N M; [congruence|]. inversion P as [|? ? Hd Ps]; subst. cbn [seen size] in *.
  pose proof (size_pos s Ps). destruct (2 <=? d) eqn:Q; [nia|]. assert (d = 1) as -> by lia.
  destruct s as [|d' s]; [cbn in M; congruence|]. specialize (IH Ps ltac:(discriminate) M). lia.
Qed.
Lemma lead_step : forall f i rank s j, pos_dims s -> (length (seen s) <= j < length s)%nat -> i <= rank - Z.of_nat j ->
  lead_axes (S f) i rank (size s) (suffix j s) = lead_axes f (i + 1) rank (size s) (suffix (S j) s).
Proof.
  intros f i rank s j P J I. destruct (next_axis s j P J) as (E1 & E2 & E3).
  assert (LJ : zlen (suffix j s) = Z.of_nat j) by (unfold zlen; rewrite suffix_len by lia; reflexivity).
  cbn [lead_axes]. rewrite LJ. replace (i <=? rank - Z.of_nat j) with true by lia.
  assert (PE : (match suffix j s with [] => 1 | _ => Prod (suffix j s) end) = size (suffix j s)).
  { destruct (suffix j s) eqn:Q; [reflexivity|]. apply Prod_size. discriminate. }
  rewrite PE. replace (size (suffix j s) =? 0) with false by lia. rewrite <- E1.
  rewrite Prod_size by (rewrite E1; discriminate). rewrite E2, Z.eqb_refl. reflexivity.
Qed.
Lemma lead_stop : forall f i rank n s, rank - zlen s < i -> lead_axes f i rank n s = Ok s.
Proof. intros f i rank n s H. destruct f; cbn [lead_axes]; replace (i <=? rank - zlen s) with false by lia; reflexivity. Qed.

Lemma size_app s t : size (s ++ t) = size s * size t.
Proof. induction s as [|d s IH]; [cbn [app size]; lia|]. cbn [app size]. rewrite IH. lia. Qed.
Lemma chunks_add : forall {X} n a b (xs : list X), chunks n (a + b) xs = chunks n a xs ++ chunks n b (skipn (a * n) xs).
Proof.
  induction a as [|a IH]; intros b xs; [reflexivity|]. cbn [Nat.add]. rewrite !chunks_S, IH. cbn [app]. rewrite skipn_skipn'. reflexivity.
Qed.
Lemma chunks_firstn : forall {X} n a (xs : list X), chunks n a (firstn (a * n) xs) = chunks n a xs.
Proof.
  intros X n a xs. unfold chunks. apply map_ext_in. intros i Hi. apply in_seq in Hi. rewrite skipn_firstn_comm, firstn_firstn. f_equal. nia.
Qed.

Lemma zlen_elems : forall {A} s (xs : list A), pos_dims s -> length xs = nsize s -> zlen xs = size s /\ xs <> [].
Proof. intros A s xs P L. pose proof (size_pos s P). unfold nsize, zlen in *. split; [lia|]. intros ->. cbn in L. lia. Qed.


Section Read.
  Context {A : Type} (C : scanner) (num : text -> option A) (str : text -> A).
  Local Notation lexes := (lexes C num str).
  Local Notation ScanRankArray := (ScanRankArray C num str).
  Local Notation read_cells := (read_cells C num str).

  Lemma scan_rank : forall s l rank v sh l', lexes s l -> rank <> 0 -> tscan rank [] 0 [] l = Ok (v, sh, l') -> v <> [] ->
    exists rest, lexes rest l' /\ (length rest < length s)%nat /\
      ScanRankArray rank s =
      (let rank := if rank <? 0 then (if Prod sh =? zlen v then zlen sh - 1 else zlen sh) else rank in
       let* shape := lead_axes (S (Z.to_nat (rank + 1))) 0 rank (zlen v) sh in Ok (Some (Cell (mkArr shape v), rest))).
  Proof.
    intros s l rank v sh l' H R T N. pose proof (lexes_scan C num str s l H (length s) rank [] 0 [] (le_n _) R) as X. rewrite T in X.
    destruct X as (rest & E1 & E2 & E3 & E4). exists rest. split; [exact E2|]. split; [apply E4; [reflexivity|exact N]|].
    unfold M_Format.ScanRankArray. rewrite E1. cbn [obind]. destruct v; [congruence|]. reflexivity.
  Qed.
  Lemma scan_end : forall s m rank, lexes s (repeat K m) -> rank <> 0 -> ScanRankArray rank s = Ok None.
  Proof.
    intros s m rank H R. pose proof (lexes_scan C num str s _ H (length s) rank [] 0 [] (le_n _) R) as X.
    assert (T : forall m', tscan rank (@nil A) 0 [] (repeat K m') = Ok ([], [], [])) by (induction m' as [|m' IH]; [reflexivity|exact IH]).
    rewrite T in X. destruct X as (rest & E1 & _). unfold M_Format.ScanRankArray. rewrite E1. reflexivity.
  Qed.
  (* all axes are closed *)
  Lemma read_closed : forall t s xs, s <> [] -> pos_dims s -> length xs = nsize s -> lexes t (toks s xs ++ repeat K (length s)) ->
    ParseArray C num str t = Ok (Cell (mkArr s xs)).
  Proof.
    intros t s xs N P L H. destruct (zlen_elems s xs P L) as (ZL & NX). destruct (seen_len s) as (S1 & S2).
    assert (T : tscan (-1) [] 0 [] (toks s xs ++ repeat K (length s)) = Ok (xs, s, [])).
    { rewrite toks_first by (try assumption; lia). rewrite (seen_suffix s).
      rewrite <- (app_nil_r (repeat K (length s))). change 0 with (Z.of_nat 0) at 1. rewrite (close_extend (length s) s (-1) xs 0 (length (seen s)) []) by (try assumption; lia).
      replace (Nat.max (length (seen s)) (0 + length s)) with (length s) by lia. rewrite suffix_all. reflexivity. }
    destruct (scan_rank t _ (-1) xs s [] H ltac:(lia) T NX) as (rest & _ & _ & E). unfold ParseArray. rewrite E.
    change (-1 <? 0) with true. cbn iota zeta. rewrite Prod_size by exact N. rewrite ZL, Z.eqb_refl.
    rewrite lead_stop by lia. reflexivity.
  Qed.
  (* only the inner axes are closed *)
  Lemma read_open : forall t s xs, s <> [] -> pos_dims s -> length xs = nsize s -> lexes t (toks s xs) ->
    ParseArray C num str t = Ok (Cell (mkArr (no_leading_ones s) xs)).
  Proof.
    intros t s xs N P L H. destruct (zlen_elems s xs P L) as (ZL & NX). destruct (seen_len s) as (S1 & S2). specialize (S2 N).
    assert (T : tscan (-1) [] 0 [] (toks s xs) = Ok (xs, seen s, [])).
    { rewrite <- (app_nil_r (toks s xs)). rewrite toks_first by (try assumption; lia). reflexivity. }
    destruct (scan_rank t _ (-1) xs (seen s) [] H ltac:(lia) T NX) as (rest & _ & _ & E). unfold ParseArray. rewrite E.
    change (-1 <? 0) with true. cbn iota zeta.
    assert (Q : Prod (seen s) =? zlen xs = false).
    { rewrite ZL. pose proof (size_pos s P). destruct (seen s) as [|d r] eqn:SE; [change (Prod []) with 0; lia|].
      rewrite <- SE. rewrite Prod_size by (rewrite SE; discriminate). pose proof (seen_size s P N). rewrite SE in *. specialize (H1 ltac:(discriminate)). lia. }
    rewrite Q, ZL. rewrite (no_leading_suffix s P N).
    assert (LS : zlen (seen s) = Z.of_nat (length (seen s))) by reflexivity.
    pose proof (seen_suffix s) as SS. set (j := length (seen s)) in *. rewrite LS. rewrite SS at 1.
    rewrite lead_step; [|exact P|unfold j; lia|lia].
    rewrite lead_stop; [reflexivity|]. unfold zlen. rewrite suffix_len by lia. lia.
  Qed.

  (* ---------- by cells ---------- *)
  Section Cells.
    Context (cs : list Z) (P : pos_dims cs) (N : cs <> []).
    Let k := length cs.
    (* the text ends with the last cell, not with closing runes *)
    Definition short_ok : Prop := (length cs <= length (seen cs) + 2)%nat.

    Lemma read_cell : forall t m m' c l, length c = nsize cs -> (k <= m')%nat -> lexes t (repeat K m ++ toks cs c ++ repeat K m' ++ l) ->
      exists rest, ScanRankArray (Z.of_nat k) t = Ok (Some (Cell (mkArr cs c), rest)) /\ (length rest < length t)%nat /\
        lexes rest (repeat K (m' - k) ++ l).
    Proof.
      intros t m m' c l L M H. destruct (zlen_elems cs c P L) as (ZL & NX). destruct (seen_len cs) as (S1 & S2). specialize (S2 N).
      assert (K1 : (1 <= k)%nat) by (unfold k; destruct cs; [congruence|cbn; lia]).
      assert (T0 : forall m, tscan (Z.of_nat k) [] 0 [] (repeat K m ++ toks cs c ++ repeat K m' ++ l) = tscan (Z.of_nat k) [] 0 [] (toks cs c ++ repeat K m' ++ l))
        by (induction m0 as [|m0 IH]; [reflexivity|exact IH]).
      assert (T : tscan (Z.of_nat k) [] 0 [] (repeat K m ++ toks cs c ++ repeat K m' ++ l) = Ok (c, suffix (k - 1) cs, repeat K (m' - k) ++ l)).
      { rewrite T0. rewrite toks_first by (try assumption; try lia; right; unfold k, zlen; lia). rewrite (seen_suffix cs).
        replace m' with ((k - 1) + (1 + (m' - k)))%nat at 1 by lia. rewrite !repeat_app, <- !app_assoc. cbn [repeat app].
        change 0 with (Z.of_nat 0) at 1. rewrite (close_extend (k - 1) cs (Z.of_nat k) c 0 (length (seen cs))) by (try assumption; unfold k in *; lia).
        rewrite tscan_K by exact NX. replace (Z.of_nat (0 + (k - 1)) + 1 =? Z.of_nat k) with true by lia.
        replace (Nat.max (length (seen cs)) (0 + (k - 1))) with (k - 1)%nat by (unfold k in *; lia). reflexivity. }
      destruct (scan_rank t _ (Z.of_nat k) c _ _ H ltac:(lia) T NX) as (rest & E1 & E2 & E3). exists rest. split; [|split; assumption].
      rewrite E3. replace (Z.of_nat k <? 0) with false by lia. cbn zeta. rewrite ZL.
      rewrite lead_step; [|exact P|unfold k in *; lia|lia].
      replace (S (k - 1)) with (length cs) by (unfold k in *; lia). rewrite suffix_all.
      rewrite lead_stop; [reflexivity|]. unfold zlen, k. lia.
    Qed.
    Lemma read_last : forall t m c, length c = nsize cs -> short_ok -> lexes t (repeat K m ++ toks cs c) ->
      exists rest, ScanRankArray (Z.of_nat k) t = Ok (Some (Cell (mkArr cs c), rest)) /\ (length rest < length t)%nat /\ lexes rest [].
    Proof.
      intros t m c L SO H. destruct (zlen_elems cs c P L) as (ZL & NX). destruct (seen_len cs) as (S1 & S2). specialize (S2 N).
      assert (K1 : (1 <= k)%nat) by (unfold k; destruct cs; [congruence|cbn; lia]).
      assert (T0 : forall m, tscan (Z.of_nat k) [] 0 [] (repeat K m ++ toks cs c) = tscan (Z.of_nat k) [] 0 [] (toks cs c))
        by (induction m0 as [|m0 IH]; [reflexivity|exact IH]).
      assert (T : tscan (Z.of_nat k) [] 0 [] (repeat K m ++ toks cs c) = Ok (c, seen cs, [])).
      { rewrite T0. rewrite <- (app_nil_r (toks cs c)). rewrite toks_first by (try assumption; try lia; right; unfold k, zlen; lia). reflexivity. }
      destruct (scan_rank t _ (Z.of_nat k) c _ _ H ltac:(lia) T NX) as (rest & E1 & E2 & E3). exists rest. split; [|split; assumption].
      rewrite E3. replace (Z.of_nat k <? 0) with false by lia. cbn zeta. rewrite ZL.
      rewrite (seen_suffix cs). rewrite lead_step; [|exact P|lia|unfold k in *; lia].
      unfold short_ok in SO. destruct (Nat.eq_dec (S (length (seen cs))) (length cs)) as [Q|Q].
      - rewrite Q, suffix_all. rewrite lead_stop; [reflexivity|]. unfold zlen, k. lia.
      - replace (Z.to_nat (Z.of_nat k + 1)) with (S k) by lia. rewrite lead_step; [|exact P|lia|unfold k; lia].
        replace (S (S (length (seen cs)))) with (length cs) by lia. rewrite suffix_all.
        rewrite lead_stop; [reflexivity|]. unfold zlen, k. lia.
    Qed.
    Inductive celled : list (list A) -> list tok -> Prop :=
    | cl_nil m : celled [] (repeat K m)
    | cl_cons m m' c r l : length c = nsize cs -> (k <= m')%nat -> celled r l -> celled (c :: r) (repeat K m ++ toks cs c ++ repeat K m' ++ l)
    | cl_last m c : length c = nsize cs -> short_ok -> celled [c] (repeat K m ++ toks cs c).
    Lemma celled_K : forall r l m, celled r l -> celled r (repeat K m ++ l).
    Proof.
      intros r l m H. destruct H as [m1|m1 m' c r l L M H|m1 c L SO].
      - rewrite <- repeat_app. constructor.
      - rewrite app_assoc, <- repeat_app. constructor; assumption.
      - rewrite app_assoc, <- repeat_app. constructor; assumption.
    Qed.
    Lemma celled_app : forall r l r' l' m, celled r l -> (k <= m)%nat -> celled r' l' -> celled (r ++ r') (l ++ repeat K m ++ l').
    Proof.
      intros r l r' l' m H M H'. induction H as [m1|m1 m' c r l L M' H IH|m1 c L SO].
      - cbn [app]. rewrite app_assoc, <- repeat_app. apply celled_K. exact H'.
      - cbn [app]. rewrite <- !app_assoc. apply cl_cons; assumption.
      - cbn [app]. rewrite <- !app_assoc. apply cl_cons; assumption.
    Qed.
    Lemma celled_read : forall r l, celled r l -> forall n t fuel, lexes t (repeat K n ++ l) -> (length t < fuel)%nat ->
      read_cells fuel (Z.of_nat k) t = map (fun c => Some (Cell (mkArr cs c))) r.
    Proof.
      assert (K1 : (1 <= k)%nat) by (unfold k; destruct cs; [congruence|cbn; lia]).
      intros r l H. induction H as [m1|m1 m' c r l L M H IH|m1 c L SO]; intros n t fuel X F; (destruct fuel as [|fuel]; [lia|]); cbn [M_Format.read_cells map].
      - rewrite <- repeat_app in X. rewrite (scan_end t (n + m1)) by (try exact X; lia). reflexivity.
      - rewrite app_assoc, <- repeat_app in X. destruct (read_cell t _ m' c l L M X) as (rest & E1 & E2 & E3). rewrite E1. f_equal.
        apply (IH (m' - k)%nat); [exact E3|lia].
      - rewrite app_assoc, <- repeat_app in X. destruct (read_last t _ c L SO X) as (rest & E1 & E2 & E3). rewrite E1. f_equal.
        destruct fuel as [|fuel]; [lia|]. cbn [M_Format.read_cells]. rewrite (scan_end rest 0) by (try exact E3; lia). reflexivity.
    Qed.
    (* the cells of an array *)
    Lemma celled_tail : forall out xs r tl, pos_dims out -> length xs = nsize (out ++ cs) ->
      (forall c, length c = nsize cs -> celled (c :: r) (toks cs c ++ tl)) ->
      celled (chunks (nsize cs) (nsize out) xs ++ r) (toks (out ++ cs) xs ++ tl).
    Proof.
      induction out as [|d out IH]; intros xs r tl Po L B.
      - cbn [app] in *. change (nsize []) with 1%nat. rewrite chunks_S. cbn [chunks seq map app]. rewrite firstn_all2 by lia. apply B. exact L.
      - inversion Po as [|? ? Hd Ps]; subst. cbn [app] in *.
        assert (PA : pos_dims (out ++ cs)) by (apply Forall_app; split; assumption).
        destruct (nsize_cons d (out ++ cs) Hd PA) as (NS & _). destruct (nsize_cons d out Hd Ps) as (NO & _).
        assert (NA : nsize (out ++ cs) = (nsize out * nsize cs)%nat).
        { pose proof (size_pos out Ps). pose proof (size_pos cs P). unfold nsize. rewrite size_app. nia. }
        rewrite NO. rewrite toks_cons. rewrite NS in L.
        assert (D : exists n, Z.to_nat d = S n) by (exists (Z.to_nat (d - 1)); lia). destruct D as (n & Dn). rewrite Dn in *. clear Dn NO NS Hd Po d.
        revert xs L. induction n as [|n IHn]; intros xs L.
        + rewrite chunks_S. cbn [chunks seq map sepby]. rewrite firstn_all2 by lia. rewrite Nat.mul_1_l. apply IH; [exact Ps|lia|exact B].
        + rewrite chunks_S. cbn [map]. rewrite sepby_cons by (rewrite chunks_S; discriminate). rewrite <- !app_assoc.
          change (S (S n) * nsize out)%nat with (nsize out + S n * nsize out)%nat. rewrite chunks_add, <- app_assoc.
          rewrite <- (chunks_firstn (nsize cs) (nsize out) xs). rewrite <- NA.
          apply IH; [exact Ps|rewrite firstn_length; cbn in L; lia|].
          intros c Lc. apply (cl_cons 0); [exact Lc|unfold k; rewrite app_length; lia|].
          apply IHn. rewrite skipn_length. cbn in L |- *. lia.
    Qed.
    Lemma celled_toks : forall out xs b, pos_dims out -> length xs = nsize (out ++ cs) -> (k <= b)%nat \/ (b = 0%nat /\ short_ok) ->
      celled (chunks (nsize cs) (nsize out) xs) (toks (out ++ cs) xs ++ repeat K b).
    Proof.
      intros out xs b Po L B. rewrite <- (app_nil_r (chunks _ _ _)). apply celled_tail; [exact Po|exact L|]. intros c Lc. destruct B as [B|(-> & B)].
      - rewrite <- (app_nil_r (repeat K b)). apply (cl_cons 0 b c [] []); [exact Lc|exact B|apply (cl_nil 0)].
      - cbn [repeat]. rewrite app_nil_r. apply (cl_last 0); assumption.
    Qed.
  End Cells.
End Read.

(* ---------- scalars ---------- *)
Section Scalars.
  Context {A : Type} (C : scanner) (num : text -> option A) (str : text -> A).
  Definition atoms (l : list (@tok A)) : list A := flat_map (fun t => match t with E x => [x] | K => [] end) l.
  Lemma atoms_app : forall a b, atoms (a ++ b) = atoms a ++ atoms b.
  Proof. intros a b. unfold atoms. apply flat_map_app. Qed.
  Lemma atoms_K : forall m, atoms (repeat K m) = [].
  Proof. induction m as [|m IH]; [reflexivity|exact IH]. Qed.
  Lemma atoms_E : forall xs, atoms (map (fun x => E x) xs) = xs.
  Proof. induction xs as [|x xs IH]; [reflexivity|]. cbn. f_equal. exact IH. Qed.
  Lemma atoms_sepby : forall m ls, atoms (sepby (repeat K m) ls) = concat (map atoms ls).
  Proof.
    induction ls as [|l ls IH]; [reflexivity|]. destruct ls as [|l' ls]; [cbn; rewrite app_nil_r; reflexivity|].
    rewrite sepby_cons by discriminate. rewrite !atoms_app, atoms_K, IH. reflexivity.
  Qed.
  Lemma atoms_toks : forall s xs, pos_dims s -> length xs = nsize s -> atoms (toks s xs) = xs.
  Proof.
    induction s as [|d s IH]; intros xs P L; [apply atoms_E|]. inversion P as [|? ? Hd Ps]; subst.
    destruct (nsize_cons d s Hd Ps) as (NS & _). rewrite NS in L. rewrite toks_cons, atoms_sepby, map_map.
    rewrite <- (chunks_concat (nsize s) (Z.to_nat d) xs L) at 2. f_equal.
    rewrite <- (map_id (chunks _ _ xs)) at 2. apply map_ext_in. intros c Hc. apply IH; [exact Ps|].
    pose proof (chunks_len (nsize s) (Z.to_nat d) xs ltac:(lia)) as F. rewrite Forall_forall in F. apply F. exact Hc.
  Qed.
  Lemma scalars_read : forall fuel t l, lexes C num str t l -> (length t < fuel)%nat ->
    read_cells C num str fuel 0 t = map (fun x => Some (Atom x)) (atoms l).
  Proof.
    induction fuel as [|fuel IH]; intros t l H F; [lia|]. cbn [read_cells]. unfold ScanRankArray.
    destruct (lexes_scalar C num str t l H (length t) (le_n _)) as [(x & l' & rest & E1 & E2 & E3 & E4)|(E1 & sh & E2)]; rewrite E2; cbn [obind].
    - rewrite (IH rest l' E3) by lia. rewrite E1, atoms_app, atoms_K. reflexivity.
    - rewrite E1, atoms_K. reflexivity.
  Qed.
End Scalars.

(* ---------- the texts of elements ---------- *)
Lemma digit_value_10 : forall d, 0 <= d < 10 -> digit_value 10 (48 + d) = Some d.
Proof.
  intros d H. unfold digit_value, digit, rune_range. replace ((48 <=? 48 + d) && (48 + d <=? 57)) with true by lia.
  cbn iota. replace (48 + d - 48) with d by lia. replace (d <? 10) with true by lia. reflexivity.
Qed.
Lemma digits_of_value : forall fuel n acc, 0 <= n < 10 ^ Z.of_nat fuel -> (fuel > 0)%nat ->
  digits_value 10 0 (digits_of fuel n acc) = digits_value 10 n acc.
Proof.
  induction fuel as [|fuel IH]; intros n acc H F; [lia|]. cbn [digits_of]. pose proof (Z.mod_pos_bound n 10 ltac:(lia)).
  destruct (n <? 10) eqn:Q.
  - cbn [digits_value]. rewrite digit_value_10 by lia. rewrite Z.mod_small by lia. reflexivity.
  - destruct fuel as [|fuel]; [cbn in H; lia|]. rewrite IH; [|split; [apply Z.div_pos; lia|]|lia].
    + cbn [digits_value]. rewrite digit_value_10 by lia. f_equal. pose proof (Z.div_mod n 10 ltac:(lia)). lia.
    + apply Z.div_lt_upper_bound; [lia|]. rewrite Nat2Z.inj_succ, Z.pow_succ_r in H by lia. lia.
Qed.
Lemma digits_of_head : forall fuel n acc, 0 < n < 10 ^ Z.of_nat fuel -> (fuel > 0)%nat ->
  exists d l, digits_of fuel n acc = (48 + d) :: l /\ 1 <= d <= 9.
Proof.
  induction fuel as [|fuel IH]; intros n acc H F; [lia|]. cbn [digits_of]. destruct (n <? 10) eqn:Q.
  - exists n, acc. rewrite Z.mod_small by lia. split; [reflexivity|lia].
  - destruct fuel as [|fuel]; [cbn in H; lia|]. apply IH; [|lia]. split.
    + apply Z.div_str_pos. lia.
    + apply Z.div_lt_upper_bound; [lia|]. rewrite Nat2Z.inj_succ, Z.pow_succ_r in H by lia. lia.
Qed.
Lemma digits_of_digits : forall fuel n acc, Forall (fun r => 48 <= r <= 57) acc -> Forall (fun r => 48 <= r <= 57) (digits_of fuel n acc).
Proof.
  induction fuel as [|fuel IH]; intros n acc H; [exact H|]. cbn [digits_of]. pose proof (Z.mod_pos_bound n 10 ltac:(lia)).
  assert (F : Forall (fun r => 48 <= r <= 57) (48 + n mod 10 :: acc)) by (constructor; [lia|exact H]).
  destruct (n <? 10); [exact F|]. apply IH. exact F.
Qed.
Lemma decimal_pos : forall n, 0 < n < 10 ^ 20 -> exists d l, decimal n = (48 + d) :: l /\ 1 <= d <= 9 /\ digits_value 10 0 (decimal n) = Some n.
Proof.
  intros n H. destruct (digits_of_head 20 n []) as (d & l & E & D); [exact H|lia|]. exists d, l. split; [exact E|]. split; [exact D|].
  unfold decimal. rewrite digits_of_value; [reflexivity| |lia]. change (Z.of_nat 20) with 20. lia.
Qed.
Lemma unsigned_decimal : forall n, 0 <= n < 10 ^ 20 -> unsigned_value (decimal n) = Some n.
Proof.
  intros n H. destruct (Z.eq_dec n 0) as [->|N]; [reflexivity|]. destruct (decimal_pos n ltac:(lia)) as (d & l & E & D & V).
  unfold unsigned_value. rewrite E in *. replace (48 + d =? 48) with false by lia. exact V.
Qed.
Lemma decimal_nonempty : forall n, 0 <= n < 10 ^ 20 -> exists r l, decimal n = r :: l /\ 48 <= r <= 57.
Proof.
  intros n H. destruct (Z.eq_dec n 0) as [->|N]; [exists 48, []; split; [reflexivity|lia]|].
  destruct (decimal_pos n ltac:(lia)) as (d & l & E & D & _). exists (48 + d), l. split; [exact E|lia].
Qed.
Lemma decimal_digits : forall n, Forall (fun r => 48 <= r <= 57) (decimal n).
Proof. intros n. apply digits_of_digits. constructor. Qed.
Lemma macron_digits : forall s, Forall (fun r => 48 <= r <= 57) s -> macron_to_minus s = s.
Proof.
  intros s H. unfold macron_to_minus. rewrite <- (map_id s) at 2. apply map_ext_in. intros r Hr. rewrite Forall_forall in H. specialize (H r Hr).
  unfold r_macron. replace (r =? 175) with false by lia. reflexivity.
Qed.
Definition int64 (z : Z) : Prop := - 9223372036854775808 <= z <= 9223372036854775807.
Lemma ParseInt_intString : forall z, int64 z -> ParseInt (intString z) = Some z.
Proof.
  intros z H. unfold int64 in H. unfold ParseInt, intString. destruct (z <? 0) eqn:Q.
  - cbn [macron_to_minus map]. fold (macron_to_minus (decimal (- z))). rewrite macron_digits by apply decimal_digits.
    change (r_macron =? r_macron) with true. cbn iota. unfold parse_int64. change (r_minus =? 45) with true. cbn iota.
    rewrite unsigned_decimal by lia. replace (- - z) with z by lia. replace ((-9223372036854775808 <=? z) && (z <=? 9223372036854775807)) with true by lia. reflexivity.
  - rewrite macron_digits by apply decimal_digits. unfold parse_int64. destruct (decimal_nonempty z ltac:(lia)) as (r & l & E & R).
    pose proof (unsigned_decimal z ltac:(lia)) as U. rewrite E in *. replace (r =? 45) with false by lia. replace (r =? 43) with false by lia.
    rewrite U. replace ((-9223372036854775808 <=? z) && (z <=? 9223372036854775807)) with true by lia. reflexivity.
Qed.
Lemma list_eqb_eq : forall a b, list_eqb a b = true -> a = b.
Proof. induction a as [|x a IH]; intros [|y b] H; cbn in H; try discriminate; [reflexivity|]. apply andb_prop in H. destruct H as (H1 & H2). f_equal; [lia|apply IH; exact H2]. Qed.
Lemma intString_runes : forall z, intString z <> [] /\ Forall (fun r => number_rune r = true) (intString z)
  /\ (int64 z -> forall r, intString z <> [r; 98]).
Proof.
  intros z. assert (D : forall n, Forall (fun r => number_rune r = true) (decimal n)).
  { intros n. eapply Forall_impl; [|apply decimal_digits]. intros r H. cbv beta in H. unfold number_rune, digit, rune_range. lia. }
  assert (G : forall f m acc, digits_of (S f) m acc <> []).
  { induction f as [|f IHf]; intros m acc; [cbn; destruct (m <? 10); discriminate|].
    change (digits_of (S (S f)) m acc) with (if m <? 10 then (48 + m mod 10) :: acc else digits_of (S f) (m / 10) ((48 + m mod 10) :: acc)).
    destruct (m <? 10); [discriminate|apply IHf]. }
  assert (E : forall n, decimal n <> []) by (intros n; apply (G 19%nat)).
  unfold intString. destruct (z <? 0) eqn:Q; (split; [|split]).
  - discriminate.
  - constructor; [reflexivity|apply D].
  - intros _ r Q2. inversion Q2 as [[Q3 Q4]]. pose proof (decimal_digits (- z)) as F. rewrite Q4 in F. inversion F. lia.
  - apply E.
  - apply D.
  - intros _ r Q2. pose proof (decimal_digits z) as F. rewrite Q2 in F. inversion F as [|? ? _ F2]. inversion F2. lia.
Qed.
Lemma towerParse_int : forall {A} (op : text -> option A) z, int64 z -> towerParse op (intString z) = Some (EInt z).
Proof.
  intros A op z H. unfold towerParse. destruct (intString_runes z) as (_ & _ & N). specialize (N H).
  destruct (list_eqb (intString z) [49; 98]) eqn:Q1; [apply list_eqb_eq in Q1; exfalso; exact (N _ Q1)|].
  destruct (list_eqb (intString z) [48; 98]) eqn:Q2; [apply list_eqb_eq in Q2; exfalso; exact (N _ Q2)|].
  rewrite ParseInt_intString by exact H. reflexivity.
Qed.
