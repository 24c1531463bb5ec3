(* P_Format.v -- lemmas on the text of arrays. *)
From Verif Require Import Base M_Array S_Array P_Array M_Scan S_Scan P_Scan M_Strings M_Format S_Format.
From Coq Require Import Lia.

Lemma skipn_skipn' : forall {X} (l : list X) a b, skipn a (skipn b l) = skipn (b + a) l.
Proof. intros X l. induction l as [|x l IH]; intros a [|b]; cbn; rewrite ?skipn_nil; auto. Qed.

Section Tok.
  Context {A : Type}.

  (* what the reader sees: elements and closing runes *)
  Inductive tok := E (x : A) | K.
  Fixpoint sepby {X} (sep : list X) (ls : list (list X)) : list X :=
    match ls with [] => [] | [l] => l | l :: r => l ++ sep ++ sepby sep r end.
  Lemma sepby_cons : forall {X} (sep l : list X) ls, ls <> [] -> sepby sep (l :: ls) = l ++ sep ++ sepby sep ls.
  Proof. intros X sep l [|m ls] H; [congruence|reflexivity]. Qed.
  Lemma Join_sepby : forall v sep, Join v sep = sepby sep v.
  Proof. induction v as [|x [|y v] IH]; intros sep; [reflexivity|reflexivity|]. change (Join (x :: y :: v) sep) with (x ++ sep ++ Join (y :: v) sep). rewrite IH. reflexivity. Qed.

  Definition chunks {X} (n d : nat) (xs : list X) : list (list X) := map (fun i => firstn n (skipn (i * n) xs)) (seq 0 d).
  Lemma chunks_S : forall {X} n d (xs : list X), chunks n (S d) xs = firstn n xs :: chunks n d (skipn n xs).
  Proof.
    intros X n d xs. unfold chunks. cbn [seq map]. f_equal. rewrite <- seq_shift, map_map. apply map_ext. intros i.
    rewrite skipn_skipn'. f_equal.
  Qed.
  Lemma chunks_len : forall {X} n d (xs : list X), (d * n <= length xs)%nat -> Forall (fun c => length c = n) (chunks n d xs).
  Proof.
    intros X n d. induction d as [|d IH]; intros xs H; [constructor|]. rewrite chunks_S. constructor.
    - rewrite firstn_length. cbn in H. lia.
    - apply IH. rewrite skipn_length. cbn in H. lia.
  Qed.
  Lemma chunks_concat : forall {X} n d (xs : list X), length xs = (d * n)%nat -> concat (chunks n d xs) = xs.
  Proof.
    intros X n d. induction d as [|d IH]; intros xs H; [destruct xs; [reflexivity|cbn in H; lia]|]. rewrite chunks_S. cbn [concat].
    rewrite IH; [apply firstn_skipn|]. rewrite skipn_length. cbn in H. lia.
  Qed.
  Definition nsize (s : list Z) : nat := Z.to_nat (size s).
  Definition pos_dims (s : list Z) : Prop := Forall (fun d => 1 <= d) s.
  Lemma nsize_cons : forall d s, 1 <= d -> pos_dims s -> nsize (d :: s) = (Z.to_nat d * nsize s)%nat /\ (1 <= nsize (d :: s))%nat.
  Proof.
    intros d s Hd Hs. unfold nsize. cbn [size]. assert (P : forall s, pos_dims s -> 1 <= size s).
    { clear. induction 1 as [|d s H1 H2 IH]; cbn [size]; nia. }
    specialize (P s Hs). split; [rewrite Z2Nat.inj_mul by lia; reflexivity|]. nia.
  Qed.
  Lemma size_pos : forall s, pos_dims s -> 1 <= size s.
  Proof. induction 1 as [|d s H1 H2 IH]; cbn [size]; nia. Qed.

  Fixpoint toks (s : list Z) (xs : list A) : list tok :=
    match s with
    | [] => map E xs
    | d :: s' => sepby (repeat K (length s')) (map (toks s') (chunks (nsize s') (Z.to_nat d) xs))
    end.

  (* ---------- the token machine ---------- *)
  Fixpoint tscan (rank : Z) (vals : list A) (c : Z) (shape : list Z) (l : list tok) : outcome (list A * list Z * list tok) :=
    match l with
    | [] => Ok (vals, shape, [])
    | E x :: l' => tscan rank (vals ++ [x]) 0 shape l'
    | K :: l' =>
        match vals with
        | [] => tscan rank vals c shape l'
        | _ => if c + 1 =? rank then Ok (vals, shape, l')
               else let* shape := (if zlen shape <? c + 1 then extend (zlen vals) shape else Ok shape) in
                    tscan rank vals (c + 1) shape l'
        end
    end.
  Lemma tscan_K : forall rank vals c shape l, vals <> [] -> tscan rank vals c shape (K :: l) =
    if c + 1 =? rank then Ok (vals, shape, l)
    else let* shape := (if zlen shape <? c + 1 then extend (zlen vals) shape else Ok shape) in tscan rank vals (c + 1) shape l.
  Proof. intros rank [|x v] c shape l H; [congruence|reflexivity]. Qed.
  (* closing runes that are already known *)
  Lemma close_known : forall m rank vals c sh l, vals <> [] -> 0 <= c -> c + Z.of_nat m <= zlen sh ->
    (rank < 0 \/ c + Z.of_nat m < rank) ->
    tscan rank vals c sh (repeat K m ++ l) = tscan rank vals (c + Z.of_nat m) sh l.
  Proof.
    induction m as [|m IH]; intros rank vals c sh l V C L R.
    - cbn. f_equal; lia.
    - cbn [repeat app]. rewrite tscan_K by exact V. replace (c + 1 =? rank) with false by lia.
      replace (zlen sh <? c + 1) with false by lia. cbn [obind]. rewrite IH; [f_equal; lia|exact V|lia|lia|lia].
  Qed.
  Lemma toks_stable : forall s xs rank v c sh l, pos_dims s -> length xs = nsize s -> 0 <= c ->
    zlen s <= zlen sh + 1 -> (rank < 0 \/ zlen s <= rank) ->
    tscan rank v c sh (toks s xs ++ l) = tscan rank (v ++ xs) 0 sh l.
  Proof.
    induction s as [|d s IH]; intros xs rank v c sh l P L C Z1 R.
    - cbn in L. destruct xs as [|x [|y xs]]; cbn in L; try lia. reflexivity.
    - inversion P as [|? ? Hd Ps]; subst. destruct (nsize_cons d s Hd Ps) as (N & _). rewrite N in L. clear N.
      cbn [toks]. rewrite zlen_cons in Z1, R.
      assert (D : exists n, Z.to_nat d = S n) by (exists (Z.to_nat (d - 1)); lia). destruct D as (n & Dn). rewrite Dn in *. clear Dn Hd P d.
      revert xs v c L C. induction n as [|n IHn]; intros xs v c L C.
      + rewrite chunks_S. cbn [chunks seq map sepby]. rewrite firstn_all2 by lia.
        apply IH; [exact Ps|lia|exact C|lia|lia].
      + rewrite chunks_S. cbn [map]. rewrite sepby_cons by (rewrite chunks_S; discriminate). rewrite <- !app_assoc.
        assert (L1 : length (firstn (nsize s) xs) = nsize s) by (rewrite firstn_length; cbn in L; lia).
        rewrite IH; [|exact Ps|exact L1|exact C|lia|lia].
        assert (NE : v ++ firstn (nsize s) xs <> []).
        { intros Q. apply app_eq_nil in Q. destruct Q as (_ & Q). rewrite Q in L1. cbn in L1. pose proof (size_pos s Ps). unfold nsize in L1. lia. }
        rewrite close_known; [|exact NE|lia|fold (zlen s); unfold zlen in *; lia|unfold zlen in *; lia].
        rewrite IHn; [|rewrite skipn_length; cbn in L |- *; lia|lia].
        rewrite <- app_assoc, firstn_skipn. reflexivity.
  Qed.

  (* the axes that are known after the text of an array, before any closing rune at its end *)
  Fixpoint seen (s : list Z) : list Z :=
    match s with [] => [] | d :: s' => if 2 <=? d then s' else seen s' end.
  Definition suffix {X} (j : nat) (s : list X) : list X := skipn (length s - j) s.
  Lemma suffix_len : forall {X} j (s : list X), (j <= length s)%nat -> length (suffix j s) = j.
  Proof. intros X j s H. unfold suffix. rewrite skipn_length. lia. Qed.
  Lemma suffix_cons : forall {X} j (d : X) s, (j <= length s)%nat -> suffix j (d :: s) = suffix j s.
  Proof. intros X j d s H. unfold suffix. cbn [length]. replace (S (length s) - j)%nat with (S (length s - j)) by lia. reflexivity. Qed.
  Lemma suffix_all : forall {X} (s : list X), suffix (length s) s = s.
  Proof. intros X s. unfold suffix. rewrite Nat.sub_diag. reflexivity. Qed.
  Lemma seen_len : forall s, (length (seen s) <= length s)%nat /\ (s <> [] -> length (seen s) < length s)%nat.
  Proof.
    induction s as [|d s (IH & IH')]; cbn [seen length]; [split; [lia|congruence]|]. destruct (2 <=? d); split; intros; lia.
  Qed.
  Lemma seen_suffix : forall s, seen s = suffix (length (seen s)) s.
  Proof.
    induction s as [|d s IH]; [reflexivity|]. cbn [seen]. destruct (2 <=? d).
    - rewrite suffix_cons by lia. symmetry. apply suffix_all.
    - rewrite suffix_cons by apply seen_len. exact IH.
  Qed.
  (* the next axis is found by division *)
  Lemma next_axis : forall s j, pos_dims s -> (length (seen s) <= j < length s)%nat ->
    suffix (S j) s = Z.quot (size s) (size (suffix j s)) :: suffix j s /\ size (suffix (S j) s) = size s
    /\ 1 <= size (suffix j s).
  Proof.
    induction s as [|d s IH]; intros j P (J1 & J2); [cbn in J2; lia|]. inversion P as [|? ? Hd Ps]; subst. cbn [length] in J2.
    cbn [seen] in J1. destruct (Nat.eq_dec j (length s)) as [->|N].
    - rewrite (suffix_cons (length s) d s) by lia. rewrite (suffix_all s). change (S (length s)) with (length (d :: s)). rewrite suffix_all.
      pose proof (size_pos s Ps). cbn [size]. split; [rewrite Z.quot_mul by lia; reflexivity|]. split; [reflexivity|lia].
    - rewrite (suffix_cons (S j) d s), (suffix_cons j d s) by lia. destruct (2 <=? d) eqn:E2; [lia|]. assert (d = 1) as -> by lia. cbn [size]. rewrite Z.mul_1_l.
      apply IH; [exact Ps|lia].
  Qed.
  Lemma extend_next : forall s j n, pos_dims s -> (length (seen s) <= j < length s)%nat -> n = size s ->
    extend n (suffix j s) = Ok (suffix (S j) s).
  Proof.
    intros s j n P J ->. destruct (next_axis s j P J) as (E1 & E2 & E3). rewrite E1. unfold extend.
    destruct (suffix j s) as [|d0 r] eqn:Q.
    - cbn [size]. rewrite Z.quot_1_r. reflexivity.
    - rewrite <- Q in *. rewrite Prod_size by (rewrite Q; discriminate). replace (size (suffix j s) =? 0) with false by lia. reflexivity.
  Qed.
  Lemma close_extend : forall m s rank (vals : list A) c j l, pos_dims s -> zlen vals = size s ->
    (length (seen s) <= j)%nat -> (c <= j)%nat -> (j <= length s)%nat -> (c + m <= length s)%nat ->
    (rank < 0 \/ Z.of_nat (c + m) < rank) ->
    tscan rank vals (Z.of_nat c) (suffix j s) (repeat K m ++ l) =
    tscan rank vals (Z.of_nat (c + m)) (suffix (Nat.max j (c + m)) s) l.
  Proof.
    induction m as [|m IH]; intros s rank vals c j l P V J1 J2 J3 M R.
    - cbn. rewrite Nat.add_0_r. rewrite Nat.max_l by lia. reflexivity.
    - assert (NE : vals <> []) by (intros ->; pose proof (size_pos s P); cbn in V; lia).
      cbn [repeat app]. rewrite tscan_K by exact NE. replace (Z.of_nat c + 1 =? rank) with false by lia.
      assert (LS : zlen (suffix j s) = Z.of_nat j) by (unfold zlen; rewrite suffix_len by lia; reflexivity). rewrite LS.
      replace (Z.of_nat c + 1) with (Z.of_nat (S c)) by lia.
      destruct (Z.of_nat j <? Z.of_nat (S c)) eqn:Q.
      + assert (c = j) as -> by lia. rewrite (extend_next s j) by (try assumption; lia). cbn [obind].
        rewrite IH by (try assumption; try lia). f_equal; f_equal; lia.
      + cbn [obind]. rewrite IH by (try assumption; try lia). f_equal; [lia|f_equal; lia].
  Qed.
  Lemma toks_first : forall s xs rank c l, pos_dims s -> length xs = nsize s -> 0 <= c ->
    (rank < 0 \/ zlen s <= rank) ->
    tscan rank [] c [] (toks s xs ++ l) = tscan rank xs 0 (seen s) l.
  Proof.
    induction s as [|d s IH]; intros xs rank c l P L C R.
    - cbn in L. destruct xs as [|x [|y xs]]; cbn in L; try lia. reflexivity.
    - inversion P as [|? ? Hd Ps]; subst. destruct (nsize_cons d s Hd Ps) as (N & _). rewrite N in L. clear N. rewrite zlen_cons in R.
      cbn [toks seen]. destruct (2 <=? d) eqn:D2.
      + assert (D : exists n, Z.to_nat d = S (S n)) by (exists (Z.to_nat (d - 2)); lia). destruct D as (n & Dn). rewrite Dn in *.
        rewrite chunks_S. cbn [map]. rewrite sepby_cons by (rewrite chunks_S; discriminate). rewrite <- !app_assoc.
        assert (L1 : length (firstn (nsize s) xs) = nsize s) by (rewrite firstn_length; cbn in L; lia).
        rewrite IH; [|exact Ps|exact L1|exact C|unfold zlen in *; lia].
        rewrite seen_suffix at 1. change 0 with (Z.of_nat 0) at 1.
        assert (LZ : zlen (firstn (nsize s) xs) = size s).
        { unfold zlen. rewrite L1. unfold nsize. pose proof (size_pos s Ps). lia. }
        rewrite close_extend; [|exact Ps|exact LZ|lia|lia|apply seen_len|lia|unfold zlen in *; lia].
        rewrite Nat.max_r by (cbn; apply seen_len). cbn [Nat.add]. rewrite suffix_all.
        (* the other cells *)
        pose (ds := Z.of_nat (S n) :: s).
        assert (T : sepby (repeat K (length s)) (map (toks s) (chunks (nsize s) (S n) (skipn (nsize s) xs))) = toks ds (skipn (nsize s) xs)).
        { unfold ds. cbn [toks]. rewrite Nat2Z.id. reflexivity. }
        rewrite T. rewrite toks_stable.
        * rewrite firstn_skipn. reflexivity.
        * unfold ds. constructor; [lia|exact Ps].
        * rewrite skipn_length. unfold ds. destruct (nsize_cons (Z.of_nat (S n)) s) as (-> & _); [lia|exact Ps|]. rewrite Nat2Z.id. cbn in L |- *. lia.
        * lia.
        * unfold ds. rewrite zlen_cons. lia.
        * unfold ds. rewrite zlen_cons. unfold zlen in *. lia.
      + assert (d = 1) as -> by lia. change (Z.to_nat 1) with 1%nat in *. rewrite chunks_S. cbn [chunks seq map sepby].
        rewrite firstn_all2 by lia. apply IH; [exact Ps|lia|exact C|unfold zlen in *; lia].
  Qed.
End Tok.
