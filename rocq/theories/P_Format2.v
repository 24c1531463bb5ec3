(* P_Format2.v -- the texts of arrays as sequences of elements and closing runes. *)
From Verif Require Import Base M_Array S_Array P_Array M_Scan S_Scan P_Scan M_Strings M_Format S_Format P_Format.
From Coq Require Import Lia.

Section Lex.
  Context {A : Type} (C : scanner) (num : text -> option A) (str : text -> A).
  Local Notation readable := (readable C num str).
  Local Notation scan_loop := (scan_loop C num str).

  Definition after (s : text) : Prop := number_rune (hd 0 s) = false.
  Inductive lexes : text -> list (@tok A) -> Prop :=
  | lx_nil : lexes [] []
  | lx_skip r s l : closing r = false -> skipped C r = true -> lexes s l -> lexes (r :: s) l
  | lx_close r s l : closing r = true -> lexes s l -> lexes (r :: s) (K :: l)
  | lx_elem w x s l : readable w x -> after s -> lexes s l -> lexes (w ++ s) (E x :: l).

  Lemma number_rune_plain : forall r, number_rune r = true -> closing r = false /\ skipped C r = false /\ (r =? r_dquote) = false.
  Proof.
    intros r H. unfold number_rune, digit, rune_range, r_dot, r_macron in H.
    unfold closing, skipped, IsSpace, in_runes, existsb, rune_range, r_newline, r_semicolon, r_rbrack, r_comma, r_lbrack, r_lparen, r_rparen, r_dquote, technical, rune_range.
    assert (L : r < 256) by lia. replace (r <? 256) with true by lia. lia.
  Qed.
  Lemma readable_nonempty : forall w x, readable w x -> (1 <= length w)%nat.
  Proof. intros w x [(H & _)|(b & s & -> & _)]; [destruct w; [congruence|cbn; lia]|cbn; lia]. Qed.
  (* one element *)
  Lemma scan_elem : forall w x s fuel rank v c sh, readable w x -> after s -> (length (w ++ s) <= S fuel)%nat ->
    scan_loop (S fuel) rank v c sh (w ++ s) =
    if rank =? 0 then Ok (Found x s) else scan_loop fuel rank (v ++ [x]) 0 sh s.
  Proof.
    intros w x s fuel rank v c sh [(N & F & P)|(b & q & -> & Eb & U & ->)] Af L.
    - destruct w as [|r w]; [congruence|]. cbn [app scan_loop]. destruct (number_rune_plain r) as (H1 & H2 & H3); [inversion F; assumption|].
      rewrite H1, H2, H3. change (r :: w ++ s) with ((r :: w) ++ s). rewrite ScanNumber_app by assumption. rewrite P. reflexivity.
    - cbn [app scan_loop].
      change (closing r_dquote) with false. change (skipped C r_dquote) with false. cbn iota. rewrite Z.eqb_refl.
      assert (R : ReadString C (r_dquote :: (b ++ [r_dquote]) ++ s) = Ok (q, s)).
      { unfold ReadString. change (in_runes r_dquote [r_tick; r_quote; r_dquote]) with true. cbn [negb].
        change (r_dquote =? r_tick) with false. change (r_dquote =? r_quote) with false. cbn iota.
        rewrite <- app_assoc. cbn [app]. rewrite readDouble_app by exact Eb. cbn [rev app]. cbn in U. rewrite U. reflexivity. }
      rewrite R. reflexivity.
  Qed.
  Lemma lexes_scan : forall s l, lexes s l -> forall fuel rank v c sh, (length s <= fuel)%nat -> rank <> 0 ->
    match tscan rank v c sh l with
    | Ok (v', sh', l') => exists rest, scan_loop fuel rank v c sh s = Ok (Ended v' sh' rest) /\ lexes rest l' /\ (length rest <= length s)%nat
         /\ (v = [] -> v' <> [] -> length rest < length s)%nat
    | Err => scan_loop fuel rank v c sh s = Err
    | Panic => scan_loop fuel rank v c sh s = Panic
    end.
  Proof.
    induction 1 as [|r s l Cr Sr H IH|r s l Cr H IH|w x s l Rd Af H IH]; intros fuel rank v c sh L R.
    - cbn. exists []. split; [destruct fuel; reflexivity|]. split; [constructor|]. split; [cbn; lia|]. congruence.
    - destruct fuel as [|fuel]; [cbn in L; lia|]. cbn [scan_loop]. rewrite Cr, Sr. cbn in L.
      specialize (IH fuel rank v c sh ltac:(lia) R). destruct (tscan rank v c sh l) as [[[v' sh'] l']| |]; [|exact IH|exact IH].
      destruct IH as (rest & E1 & E2 & E3 & E4). exists rest. split; [exact E1|]. split; [exact E2|]. split; [cbn; lia|]. intros; cbn; lia.
    - destruct fuel as [|fuel]; [cbn in L; lia|]. cbn [scan_loop tscan]. rewrite Cr. cbn in L. destruct v as [|x v].
      + specialize (IH fuel rank [] c sh ltac:(lia) R). destruct (tscan rank [] c sh l) as [[[v' sh'] l']| |]; [|exact IH|exact IH].
        destruct IH as (rest & E1 & E2 & E3 & E4). exists rest. split; [exact E1|]. split; [exact E2|]. split; [cbn; lia|]. intros; cbn; lia.
      + destruct (c + 1 =? rank).
        * exists s. split; [reflexivity|]. split; [exact H|]. split; [cbn; lia|]. discriminate.
        * destruct (if zlen sh <? c + 1 then extend (zlen (x :: v)) sh else Ok sh) as [sh2| |]; cbn [obind]; [|reflexivity|reflexivity].
          specialize (IH fuel rank (x :: v) (c + 1) sh2 ltac:(lia) R). destruct (tscan rank (x :: v) (c + 1) sh2 l) as [[[v' sh'] l']| |]; [|exact IH|exact IH].
          destruct IH as (rest & E1 & E2 & E3 & E4). exists rest. split; [exact E1|]. split; [exact E2|]. split; [cbn; lia|]. discriminate.
    - pose proof (readable_nonempty w x Rd) as W. rewrite app_length in *. destruct fuel as [|fuel]; [lia|].
      rewrite (scan_elem w x s fuel rank v c sh Rd Af) by (rewrite app_length; lia). replace (rank =? 0) with false by lia.
      cbn [tscan]. specialize (IH fuel rank (v ++ [x]) 0 sh ltac:(lia) R).
      destruct (tscan rank (v ++ [x]) 0 sh l) as [[[v' sh'] l']| |]; [|exact IH|exact IH].
      destruct IH as (rest & E1 & E2 & E3 & E4). exists rest. split; [exact E1|]. split; [exact E2|]. split; [lia|]. intros; lia.
  Qed.
  (* scalars *)
  Lemma lexes_scalar : forall s l, lexes s l -> forall fuel, (length s <= fuel)%nat ->
    (exists x l' rest, l = repeat K (length l - S (length l')) ++ E x :: l' /\ scan_loop fuel 0 [] 0 [] s = Ok (Found x rest)
       /\ lexes rest l' /\ (length rest < length s)%nat)
    \/ (l = repeat K (length l) /\ exists sh, scan_loop fuel 0 [] 0 [] s = Ok (Ended [] sh [])).
  Proof.
    induction 1 as [|r s l Cr Sr H IH|r s l Cr H IH|w x s l Rd Af H IH]; intros fuel L.
    - right. split; [reflexivity|]. exists []. destruct fuel; reflexivity.
    - destruct fuel as [|fuel]; [cbn in L; lia|]. cbn [scan_loop]. rewrite Cr, Sr. cbn in L.
      destruct (IH fuel ltac:(lia)) as [(x & l' & rest & E1 & E2 & E3 & E4)|(E1 & sh & E2)].
      + left. exists x, l', rest. repeat split; try assumption. cbn. lia.
      + right. split; [exact E1|]. exists sh. exact E2.
    - destruct fuel as [|fuel]; [cbn in L; lia|]. cbn [scan_loop]. rewrite Cr. cbn in L.
      destruct (IH fuel ltac:(lia)) as [(x & l' & rest & E1 & E2 & E3 & E4)|(E1 & sh & E2)].
      + left. exists x, l', rest. split; [|repeat split; try assumption; cbn; lia].
        assert (LL : (length l >= S (length l'))%nat) by (rewrite E1, app_length; cbn; lia).
        cbn [length]. replace (S (length l) - S (length l'))%nat with (S (length l - S (length l'))) by lia. cbn [repeat app]. rewrite <- E1. reflexivity.
      + right. cbn [length repeat]. rewrite <- E1. split; [reflexivity|]. exists sh. exact E2.
    - left. exists x, l, s. cbn [length]. rewrite Nat.sub_diag. split; [reflexivity|].
      pose proof (readable_nonempty w x Rd) as W. destruct fuel as [|fuel]; [rewrite app_length in L; lia|].
      rewrite (scan_elem w x s fuel 0 [] 0 [] Rd Af L). repeat split; [exact H|rewrite app_length; lia].
  Qed.

  (* ---------- pieces of text ---------- *)
  Definition frag (t : text) (l : list tok) : Prop := forall rest lr, after rest -> lexes rest lr -> lexes (t ++ rest) (l ++ lr).
  Definition sfrag (t : text) (l : list tok) : Prop := forall rest lr, lexes rest lr -> lexes (t ++ rest) (l ++ lr).
  Definition starts (t : text) : Prop := t <> [] /\ number_rune (hd 0 t) = false.
  Lemma sfrag_frag : forall t l, sfrag t l -> frag t l.
  Proof. intros t l H rest lr _. apply H. Qed.
  Lemma starts_after : forall t rest, starts t -> after (t ++ rest).
  Proof. intros t rest (N & H). destruct t; [congruence|exact H]. Qed.
  Lemma frag_app : forall t1 l1 t2 l2, frag t1 l1 -> starts t2 -> frag t2 l2 -> frag (t1 ++ t2) (l1 ++ l2).
  Proof. intros t1 l1 t2 l2 F1 S F2 rest lr Af L. rewrite <- !app_assoc. apply F1; [apply starts_after; exact S|]. apply F2; assumption. Qed.
  Lemma sfrag_app : forall t1 l1 t2 l2, sfrag t1 l1 -> frag t2 l2 -> frag (t1 ++ t2) (l1 ++ l2).
  Proof. intros t1 l1 t2 l2 F1 F2 rest lr Af L. rewrite <- !app_assoc. apply F1. apply F2; assumption. Qed.
  Lemma sfrag_sapp : forall t1 l1 t2 l2, sfrag t1 l1 -> sfrag t2 l2 -> sfrag (t1 ++ t2) (l1 ++ l2).
  Proof. intros t1 l1 t2 l2 F1 F2 rest lr L. rewrite <- !app_assoc. apply F1. apply F2; assumption. Qed.
  Lemma frag_elem : forall w x, readable w x -> frag w [E x].
  Proof. intros w x H rest lr Af L. apply lx_elem; assumption. Qed.
  Lemma frag_done : forall t l, frag t l -> lexes t l.
  Proof. intros t l F. specialize (F [] [] eq_refl lx_nil). rewrite !app_nil_r in F. exact F. Qed.
  Lemma starts_app : forall t u, starts t -> starts (t ++ u).
  Proof. intros t u (N & H). destruct t; [congruence|]. split; [discriminate|exact H]. Qed.
  Lemma sfrag_skip : forall r, closing r = false -> skipped C r = true -> sfrag [r] [].
  Proof. intros r H1 H2 rest lr L. apply lx_skip; assumption. Qed.
  Lemma sfrag_close : forall r, closing r = true -> sfrag [r] [K].
  Proof. intros r H rest lr L. apply lx_close; assumption. Qed.
  Lemma sfrag_nil : sfrag [] [].
  Proof. intros rest lr L. exact L. Qed.
  Lemma sfrag_repeat_close : forall r n, closing r = true -> sfrag (repeat r n) (repeat K n).
  Proof. intros r n H. induction n as [|n IH]; [apply sfrag_nil|]. change (sfrag ([r] ++ repeat r n) ([K] ++ repeat K n)). apply sfrag_sapp; [apply sfrag_close; exact H|exact IH]. Qed.
  Lemma sfrag_repeat_skip : forall r n, closing r = false -> skipped C r = true -> sfrag (repeat r n) [].
  Proof. intros r n H H'. induction n as [|n IH]; [apply sfrag_nil|]. change (sfrag ([r] ++ repeat r n) ([] ++ [])). apply sfrag_sapp; [apply sfrag_skip; assumption|exact IH]. Qed.
  Lemma frag_join : forall sep lsep ts ls, starts sep -> sfrag sep lsep -> ts <> [] -> Forall2 frag ts ls ->
    frag (Join ts sep) (sepby lsep ls).
  Proof.
    intros sep lsep ts ls S F N H. induction H as [|t l ts ls Ht H IH]; [congruence|]. destruct H as [|t' l' ts ls Ht' H].
    - exact Ht.
    - change (Join (t :: t' :: ts) sep) with (t ++ sep ++ Join (t' :: ts) sep).
      change (sepby lsep (l :: l' :: ls)) with (l ++ lsep ++ sepby lsep (l' :: ls)).
      apply frag_app; [exact Ht|apply starts_app; exact S|]. apply sfrag_app; [exact F|]. apply IH. discriminate.
  Qed.
  Lemma sk_comma : sfrag [r_comma] [] /\ starts [r_comma].
  Proof. split; [apply sfrag_skip; reflexivity|split; [discriminate|reflexivity]]. Qed.
  Lemma sk_space : sfrag [r_space] [] /\ starts [r_space].
  Proof. split; [apply sfrag_skip; reflexivity|split; [discriminate|reflexivity]]. Qed.
  Lemma sk_lbrack : sfrag [r_lbrack] [].
  Proof. apply sfrag_skip; reflexivity. Qed.
  Lemma cl_rbrack : sfrag [r_rbrack] [K] /\ starts [r_rbrack].
  Proof. split; [apply sfrag_close; reflexivity|split; [discriminate|reflexivity]]. Qed.
  Lemma cl_semi : sfrag [r_semicolon] [K] /\ starts [r_semicolon].
  Proof. split; [apply sfrag_close; reflexivity|split; [discriminate|reflexivity]]. Qed.

  (* ---------- the formats ---------- *)
  Context (show : A -> text).
  Definition shown (xs : list A) : Prop := Forall (fun x => readable (show x) x) xs.
  Lemma shown_firstn : forall n xs, shown xs -> shown (firstn n xs).
  Proof. intros n xs H. rewrite <- (firstn_skipn n xs) in H. apply Forall_app in H. apply H. Qed.
  Lemma shown_skipn : forall n xs, shown xs -> shown (skipn n xs).
  Proof. intros n xs H. rewrite <- (firstn_skipn n xs) in H. apply Forall_app in H. apply H. Qed.
  Lemma shown_frags : forall xs, shown xs -> Forall2 frag (map show xs) (map (fun x => [E x]) xs).
  Proof. induction 1 as [|x xs H1 H2 IH]; [constructor|]. cbn. constructor; [apply frag_elem; exact H1|exact IH]. Qed.
  Lemma sepby_elems : forall (xs : list A), sepby [] (map (fun x => [E x]) xs) = map E xs.
  Proof. induction xs as [|x [|y xs] IH]; [reflexivity|reflexivity|]. cbn [map] in *. rewrite sepby_cons by discriminate. rewrite IH. reflexivity. Qed.
  Lemma frag_row : forall sep xs, sfrag sep [] -> starts sep -> xs <> [] -> shown xs -> frag (Join (map show xs) sep) (map E xs).
  Proof.
    intros sep xs F S N H. rewrite <- sepby_elems. apply frag_join; [exact S|exact F| |apply shown_frags; exact H]. destruct xs; [congruence|discriminate].
  Qed.
  Lemma toks_vector : forall d (xs : list A), length xs = Z.to_nat d -> toks [d] xs = map E xs.
  Proof.
    intros d xs L. cbn [toks length repeat]. change (nsize []) with 1%nat. rewrite <- L. clear L d.
    induction xs as [|x xs IH]; [reflexivity|]. cbn [length]. rewrite chunks_S. cbn [map firstn skipn].
    destruct xs as [|y xs]; [reflexivity|]. rewrite sepby_cons by (cbn [length]; rewrite chunks_S; discriminate). rewrite IH. reflexivity.
  Qed.
  Lemma toks_cons : forall d s (xs : list A), toks (d :: s) xs = sepby (repeat K (length s)) (map (toks s) (chunks (nsize s) (Z.to_nat d) xs)).
  Proof. reflexivity. Qed.

  Lemma json_frag : forall ds xs, ds <> [] -> pos_dims ds -> (nsize ds <= length xs)%nat -> shown xs ->
    exists t, json_vector ds (map show xs) = Ok t /\ frag t (toks ds (firstn (nsize ds) xs) ++ repeat K (length ds)).
  Proof.
    induction ds as [|d ds IH]; intros xs N P L Sh; [congruence|]. inversion P as [|? ? Hd Ps]; subst.
    destruct (nsize_cons d ds Hd Ps) as (NS & NP). destruct ds as [|d2 ds'].
    - cbn [json_vector]. rewrite NS in *. change (nsize []) with 1%nat in *. rewrite Nat.mul_1_r in *.
      assert (LZ : zlen (map show xs) <? d = false) by (unfold zlen; rewrite map_length; lia). rewrite LZ.
      eexists. split; [reflexivity|]. rewrite firstn_map.
      change (frag ([r_lbrack] ++ Join (map show (firstn (Z.to_nat d) xs)) [r_comma] ++ [r_rbrack]) ([] ++ toks [d] (firstn (Z.to_nat d) xs) ++ [K])).
      apply sfrag_app; [apply sk_lbrack|]. apply frag_app; [|apply cl_rbrack|apply sfrag_frag, cl_rbrack].
      rewrite toks_vector by (rewrite firstn_length; lia). apply frag_row; [apply sk_comma|apply sk_comma| |apply shown_firstn; exact Sh].
      intros Q. apply (f_equal (@length A)) in Q. rewrite firstn_length in Q. cbn in Q. lia.
    - set (s := d2 :: ds') in *. cbn [json_vector]. fold s.
      assert (PS : Prod s = Z.of_nat (nsize s)). { rewrite Prod_size by discriminate. unfold nsize. pose proof (size_pos s Ps). lia. }
      rewrite PS.
      assert (G : forall i, In i (zseq d) -> exists t,
        (if zlen (map show xs) <? i * Z.of_nat (nsize s) then Panic else json_vector s (skipn (Z.to_nat (i * Z.of_nat (nsize s))) (map show xs))) = Ok t /\
        frag t (toks s (firstn (nsize s) (skipn (Z.to_nat i * nsize s) xs)) ++ repeat K (length s))).
      { intros i Hi. apply In_zseq in Hi. assert (B : (Z.to_nat i * nsize s + nsize s <= length xs)%nat) by (rewrite NS in L; nia).
        replace (zlen (map show xs) <? i * Z.of_nat (nsize s)) with false by (unfold zlen; rewrite map_length; nia).
        replace (Z.to_nat (i * Z.of_nat (nsize s))) with (Z.to_nat i * nsize s)%nat by lia.
        rewrite skipn_map. apply IH; [discriminate|exact Ps|rewrite skipn_length; lia|apply shown_skipn; exact Sh]. }
      assert (M : exists ts, mapM (fun i => if zlen (map show xs) <? i * Z.of_nat (nsize s) then Panic else json_vector s (skipn (Z.to_nat (i * Z.of_nat (nsize s))) (map show xs))) (zseq d) = Ok ts
        /\ Forall2 frag ts (map (fun i => toks s (firstn (nsize s) (skipn (Z.to_nat i * nsize s) xs)) ++ repeat K (length s)) (zseq d))).
      { clear -G. induction (zseq d) as [|i l IHl]; [exists []; split; [reflexivity|constructor]|].
        destruct (G i (or_introl eq_refl)) as (t & E1 & E2). destruct IHl as (ts & E3 & E4); [intros j Hj; apply G; right; exact Hj|].
        exists (t :: ts). cbn [mapM map]. rewrite E1. cbn [obind]. rewrite E3. split; [reflexivity|constructor; assumption]. }
      destruct M as (ts & E1 & E2). rewrite E1. cbn [obind]. eexists. split; [reflexivity|].
      (* the tokens *)
      assert (Z1 : map (fun i => toks s (firstn (nsize s) (skipn (Z.to_nat i * nsize s) xs)) ++ repeat K (length s)) (zseq d)
             = map (fun c => toks s c ++ repeat K (length s)) (chunks (nsize s) (Z.to_nat d) (firstn (nsize (d :: s)) xs))).
      { unfold chunks, zseq. rewrite !map_map. apply map_ext_in. intros i Hi. apply in_seq in Hi. rewrite Nat2Z.id. f_equal. f_equal.
        rewrite NS. rewrite skipn_firstn_comm, firstn_firstn. f_equal. nia. }
      rewrite Z1 in E2. clear Z1.
      set (cs := chunks (nsize s) (Z.to_nat d) (firstn (nsize (d :: s)) xs)) in *.
      assert (NC : cs <> []). { unfold cs. replace (Z.to_nat d) with (S (Z.to_nat (d - 1))) by lia. rewrite chunks_S. discriminate. }
      assert (SB : forall (l : list (list A)), l <> [] ->
         sepby [] (map (fun c => toks s c ++ repeat K (length s)) l) = sepby (repeat K (length s)) (map (toks s) l) ++ repeat K (length s)).
      { clear. induction l as [|c l IHl]; intros N; [congruence|]. destruct l as [|c' l]; [reflexivity|]. cbn [map] in *.
        rewrite (sepby_cons [] _ (_ :: _)) by discriminate. rewrite IHl by discriminate.
        rewrite (sepby_cons (repeat K (length s)) _ (_ :: _)) by discriminate. rewrite <- !app_assoc. reflexivity. }
      assert (F : frag (Join ts [r_comma]) (sepby (repeat K (length s)) (map (toks s) cs) ++ repeat K (length s))).
      { rewrite <- SB by exact NC. apply frag_join; [apply sk_comma|apply sk_comma| |exact E2].
        intros ->. inversion E2 as [Q|]. destruct cs; [congruence|discriminate]. }
      rewrite toks_cons. fold cs. cbn [length].
      replace (sepby (repeat K (length s)) (map (toks s) cs) ++ repeat K (S (length s)))
        with ([] ++ (sepby (repeat K (length s)) (map (toks s) cs) ++ repeat K (length s)) ++ [K]).
      + apply sfrag_app; [apply sk_lbrack|]. apply frag_app; [exact F|apply cl_rbrack|apply sfrag_frag, cl_rbrack].
      + cbn [app]. rewrite <- app_assoc. f_equal. change (S (length s)) with (1 + length s)%nat. rewrite Nat.add_comm, repeat_app. reflexivity.
  Qed.

  Lemma mat_frag : forall n cols xs, 1 <= cols -> length xs = (S n * Z.to_nat cols)%nat -> shown xs ->
    exists t, mat_rows (S n) cols (map show xs) = Ok t /\ frag t (sepby [K] (map (toks [cols]) (chunks (Z.to_nat cols) (S n) xs))).
  Proof.
    induction n as [|n IH]; intros cols xs Hc L Sh.
    - cbn [mat_rows]. replace (zlen (map show xs) <? cols) with false by (unfold zlen; rewrite map_length; lia).
      cbn [obind]. eexists. split; [reflexivity|]. cbn [app]. rewrite app_nil_r, chunks_S. cbn [chunks seq map sepby].
      rewrite firstn_map. rewrite toks_vector by (rewrite firstn_length; lia).
      apply frag_row; [apply sk_comma|apply sk_comma| |apply shown_firstn; exact Sh].
      intros Q. apply (f_equal (@length A)) in Q. rewrite firstn_length in Q. cbn in Q. lia.
    - destruct (IH cols (skipn (Z.to_nat cols) xs) Hc) as (t & E1 & E2); [rewrite skipn_length; cbn in L |- *; lia|apply shown_skipn; exact Sh|].
      change (mat_rows (S (S n)) cols (map show xs)) with
        (if zlen (map show xs) <? cols then Panic else
          let* rest := mat_rows (S n) cols (skipn (Z.to_nat cols) (map show xs)) in
          Ok (Join (firstn (Z.to_nat cols) (map show xs)) [r_comma] ++ [r_semicolon] ++ rest)).
      replace (zlen (map show xs) <? cols) with false by (unfold zlen; rewrite map_length; cbn in L; lia).
      rewrite skipn_map, E1. cbn [obind]. eexists. split; [reflexivity|].
      rewrite chunks_S. cbn [map]. rewrite sepby_cons by (rewrite chunks_S; discriminate).
      apply frag_app; [|apply starts_app, cl_semi|apply sfrag_app; [apply cl_semi|exact E2]].
      rewrite firstn_map, toks_vector by (rewrite firstn_length; cbn in L; lia).
      apply frag_row; [apply sk_comma|apply sk_comma| |apply shown_firstn; exact Sh].
      intros Q. apply (f_equal (@length A)) in Q. rewrite firstn_length in Q. cbn in Q, L. lia.
  Qed.

  (* ---------- the table format ---------- *)
  Fixpoint run (n : nat) (idx shape : list Z) : list Z * list Z :=
    match n with
    | O => ([], idx)
    | S n' => let (idx', t) := inc_from 0 idx shape in let (ts, idx'') := run n' idx' shape in (t :: ts, idx'')
    end.
  Lemma run_app : forall n m idx shape, run (n + m) idx shape =
    (let (t1, i1) := run n idx shape in let (t2, i2) := run m i1 shape in (t1 ++ t2, i2)).
  Proof.
    induction n as [|n IH]; intros m idx shape; cbn [run Nat.add]; [destruct (run m idx shape); reflexivity|].
    destruct (inc_from 0 idx shape) as [idx' t]. rewrite IH. destruct (run n idx' shape) as [t1 i1]. destruct (run m i1 shape) as [t2 i2]. reflexivity.
  Qed.
  Fixpoint W (s : list Z) (t : Z) : list Z :=
    match s with [] => [t] | d :: s' => concat (repeat (W s' (zlen s')) (Z.to_nat d - 1)) ++ W s' t end.
  Lemma run_W : forall s, pos_dims s -> forall o O o' t, inc_from (zlen s) o O = (o', t) ->
    run (nsize s) (zerosZ (length s) ++ o) (rev s ++ O) = (W s t, zerosZ (length s) ++ o').
  Proof.
    induction s as [|d s IH]; intros P o O o' t H.
    - cbn [rev zerosZ length repeat app]. change (nsize []) with 1%nat. cbn [run]. change (zlen (@nil Z)) with 0 in H. rewrite H. reflexivity.
    - inversion P as [|? ? Hd Ps]; subst. destruct (nsize_cons d s Hd Ps) as (NS & _). rewrite NS.
      cbn [rev length]. rewrite <- app_assoc. cbn [app].
      assert (ZZ : forall r, zerosZ (S (length s)) ++ r = zerosZ (length s) ++ 0 :: r).
      { intros r. unfold zerosZ. change (S (length s)) with (1 + length s)%nat. rewrite Nat.add_comm, repeat_app, <- app_assoc. reflexivity. }
      rewrite !ZZ. rewrite zlen_cons in H.
      assert (G : forall j k, k + Z.of_nat (S j) = d -> 0 <= k ->
        run (S j * nsize s) (zerosZ (length s) ++ k :: o) (rev s ++ d :: O) = (concat (repeat (W s (zlen s)) j) ++ W s t, zerosZ (length s) ++ 0 :: o')).
      { induction j as [|j IHj]; intros k Hk K0.
        - cbn [Nat.mul]. rewrite Nat.add_0_r. cbn [repeat concat app]. apply IH; [exact Ps|]. cbn [inc_from].
          replace (k + 1 =? d) with true by lia. replace (zlen s + 1) with (1 + zlen s) by lia. rewrite H. reflexivity.
        - change (S (S j) * nsize s)%nat with (nsize s + S j * nsize s)%nat. rewrite run_app.
          rewrite (IH Ps (k :: o) (d :: O) (k + 1 :: o) (zlen s)); [|cbn [inc_from]; replace (k + 1 =? d) with false by lia; reflexivity].
          rewrite IHj by lia. cbn [repeat concat]. rewrite <- app_assoc. reflexivity. }
      cbn [W]. replace (Z.to_nat d) with (S (Z.to_nat d - 1)) at 1 by lia. apply G; lia.
  Qed.
  Fixpoint inter (xs : list A) (ts : list Z) : list tok :=
    match xs, ts with x :: xs', t :: ts' => E x :: repeat K (Z.to_nat t) ++ inter xs' ts' | _, _ => [] end.
  Lemma inter_app : forall a ta b tb, length a = length ta -> inter (a ++ b) (ta ++ tb) = inter a ta ++ inter b tb.
  Proof.
    induction a as [|x a IH]; intros [|t ta] b tb L; cbn in L; try discriminate; [reflexivity|]. cbn [app inter].
    rewrite IH by lia. rewrite <- app_assoc. reflexivity.
  Qed.
  Lemma W_len : forall s t, pos_dims s -> length (W s t) = nsize s.
  Proof.
    induction s as [|d s IH]; intros t P; [reflexivity|]. inversion P as [|? ? Hd Ps]; subst. destruct (nsize_cons d s Hd Ps) as (-> & _).
    cbn [W]. rewrite app_length, IH by exact Ps. 
    assert (G : forall n, length (concat (repeat (W s (zlen s)) n)) = (n * nsize s)%nat).
    { induction n as [|n IHn]; [reflexivity|]. cbn [repeat concat]. rewrite app_length, IH, IHn by exact Ps. reflexivity. }
    rewrite G. nia.
  Qed.
  Lemma inter_W : forall s t xs, pos_dims s -> length xs = nsize s -> inter xs (W s t) = toks s xs ++ repeat K (Z.to_nat t).
  Proof.
    induction s as [|d s IH]; intros t xs P L.
    - change (nsize []) with 1%nat in L. destruct xs as [|x [|y xs]]; cbn in L; try lia. cbn [W inter toks map app]. rewrite app_nil_r. reflexivity.
    - inversion P as [|? ? Hd Ps]; subst. destruct (nsize_cons d s Hd Ps) as (NS & _). rewrite NS in L. cbn [W]. rewrite toks_cons.
      assert (D : exists n, Z.to_nat d = S n) by (exists (Z.to_nat (d - 1)); lia). destruct D as (n & Dn). rewrite Dn in *. clear Dn NS Hd P d.
      replace (S n - 1)%nat with n by lia. revert xs L. induction n as [|n IHn]; intros xs L.
      + rewrite chunks_S. cbn [chunks seq map sepby repeat concat app]. rewrite firstn_all2 by lia. apply IH; [exact Ps|lia].
      + rewrite chunks_S. cbn [map repeat concat]. rewrite sepby_cons by (rewrite chunks_S; discriminate).
        rewrite <- (firstn_skipn (nsize s) xs) at 1. rewrite <- app_assoc. 
        assert (L1 : length (firstn (nsize s) xs) = nsize s) by (rewrite firstn_length; cbn in L; lia).
        rewrite inter_app by (rewrite L1, W_len by exact Ps; reflexivity).
        rewrite IH by (try exact Ps; exact L1). rewrite IHn by (rewrite skipn_length; cbn in L |- *; lia).
        unfold zlen. rewrite Nat2Z.id, <- !app_assoc. reflexivity.
  Qed.
  (* the text of rows with the numbers of newlines after each element *)
  Fixpoint rows_text (pad : nat -> nat) (n : nat) (xs : list A) (ts : list Z) : text :=
    match xs, ts with
    | x :: xs', t :: ts' => repeat r_space (S (pad n)) ++ show x ++
        (if 0 <? t then repeat r_newline (Z.to_nat t) else if t =? -1 then [r_newline] else []) ++ rows_text pad (S n) xs' ts'
    | _, _ => []
    end.
  Lemma table_rows_text : forall xs pad n idx shape, table_rows show pad n idx shape xs = rows_text pad n xs (fst (run (length xs) idx shape)).
  Proof.
    induction xs as [|x xs IH]; intros pad n idx shape; [reflexivity|]. cbn [table_rows length run].
    destruct (inc_from 0 idx shape) as [idx' t]. specialize (IH pad (S n) idx' shape). destruct (run (length xs) idx' shape) as [ts i2] eqn:R. cbn [fst] in *.
    cbn [rows_text]. rewrite IH. reflexivity.
  Qed.
  (* the last element is followed by one newline, which is stripped *)
  Lemma rows_text_end : forall ts xs x pad n, length xs = length ts ->
    rows_text pad n (xs ++ [x]) (ts ++ [-1]) = rows_text pad n (xs ++ [x]) (ts ++ [0]) ++ [r_newline].
  Proof.
    induction ts as [|t ts IH]; intros [|y xs] x pad n L; cbn in L; try discriminate.
    - cbn [app rows_text]. change (0 <? -1) with false. change (-1 =? -1) with true. change (0 <? 0) with false. change (0 =? -1) with false. cbn iota.
      rewrite !app_nil_r, <- !app_assoc. reflexivity.
    - cbn [app rows_text]. rewrite IH by lia. rewrite <- !app_assoc. reflexivity.
  Qed.
  Lemma strip_app : forall s, strip_newline (s ++ [r_newline]) = s.
  Proof. intros s. unfold strip_newline. rewrite rev_app_distr. cbn [rev app]. change (r_newline =? r_newline) with true. cbn iota. apply rev_involutive. Qed.
  Lemma rows_frag : forall xs ts pad n, shown xs -> Forall (fun t => 0 <= t) ts -> length xs = length ts ->
    frag (rows_text pad n xs ts) (inter xs ts) /\ (xs <> [] -> starts (rows_text pad n xs ts)).
  Proof.
    induction xs as [|x xs IH]; intros [|t ts] pad n Sh P L; cbn in L; try discriminate.
    - split; [apply sfrag_frag, sfrag_nil|congruence].
    - inversion Sh as [|? ? Hx Hxs]; subst. inversion P as [|? ? Ht Hts]; subst.
      destruct (IH ts pad (S n) Hxs Hts ltac:(lia)) as (F & St). cbn [rows_text inter]. split.
      + change (E x :: repeat K (Z.to_nat t) ++ inter xs ts) with ([] ++ [E x] ++ repeat K (Z.to_nat t) ++ inter xs ts).
        apply sfrag_app; [apply sfrag_repeat_skip; reflexivity|].
        destruct (0 <? t) eqn:Q.
        * apply frag_app; [apply frag_elem; exact Hx| |].
          -- apply starts_app. destruct (Z.to_nat t) eqn:Q2; [lia|]. split; [discriminate|reflexivity].
          -- apply sfrag_app; [apply sfrag_repeat_close; reflexivity|exact F].
        * assert (t = 0) as -> by lia. change (0 =? -1) with false. cbn iota. cbn [Z.to_nat repeat app].
          destruct xs as [|y xs].
          -- cbn [rows_text inter]. rewrite app_nil_r. apply frag_elem. exact Hx.
          -- apply (frag_app (show x) [E x]); [apply frag_elem; exact Hx|apply St; discriminate|exact F].
      + intros _. split; [discriminate|reflexivity].
  Qed.
  Lemma W_last : forall s t, pos_dims s -> exists ts, W s t = ts ++ [t] /\ (forall t', W s t' = ts ++ [t']) /\ Forall (fun u => 0 <= u) ts.
  Proof.
    assert (G : forall s, pos_dims s -> exists ts, (forall t', W s t' = ts ++ [t']) /\ Forall (fun u => 0 <= u) ts).
    { induction s as [|d s IH]; intros P; [exists []; split; [reflexivity|constructor]|]. inversion P as [|? ? Hd Ps]; subst.
      destruct (IH Ps) as (ts & E1 & E2). exists (concat (repeat (W s (zlen s)) (Z.to_nat d - 1)) ++ ts). split.
      - intros t'. cbn [W]. rewrite (E1 t'), app_assoc. reflexivity.
      - apply Forall_app. split; [|exact E2]. apply Forall_concat. apply Forall_forall. intros l Hl. apply repeat_spec in Hl. subst l.
        rewrite E1. apply Forall_app. split; [exact E2|]. repeat constructor. unfold zlen. lia. }
    intros s t P. destruct (G s P) as (ts & E1 & E2). exists ts. auto.
  Qed.
  Lemma table_frag : forall pad (v : arr A), dims v <> [] -> pos_dims (dims v) -> zlen (elems v) = size (dims v) -> shown (elems v) ->
    frag (tableArray show pad v) (toks (dims v) (elems v)).
  Proof.
    intros pad [s xs] N P L Sh. cbn [dims elems] in *.
    assert (LN : length xs = nsize s) by (unfold nsize, zlen in *; lia).
    destruct s as [|d s]; [congruence|]. destruct s as [|d2 s].
    - unfold tableArray. cbn [dims elems]. rewrite toks_vector.
      + apply frag_row; [apply sk_space|apply sk_space| |exact Sh]. intros ->. inversion P; subst. cbn in LN. unfold nsize in LN. cbn [size] in LN. lia.
      + rewrite LN. unfold nsize. cbn [size]. f_equal. lia.
    - set (sh := d :: d2 :: s) in *.
      assert (TA : tableArray show pad (mkArr sh xs) = strip_newline (table_rows show pad 0 (zerosZ (length sh)) (rev sh) xs)) by reflexivity.
      rewrite TA, table_rows_text, LN.
      pose proof (run_W sh P [] [] [] (-1) eq_refl) as R. rewrite !app_nil_r in R. rewrite R. cbn [fst].
      destruct (W_last sh (-1) P) as (ts & E1 & E2 & E3). rewrite E1.
      assert (LT : length xs = S (length ts)). { rewrite LN, <- (W_len sh (-1) P), E1, app_length. cbn. lia. }
      destruct (exists_last (l := xs)) as (ys & y & Ey); [intros Q; rewrite Q in LT; discriminate|].
      assert (LY : length ys = length ts) by (rewrite Ey, app_length in LT; cbn in LT; lia).
      rewrite Ey. rewrite rows_text_end by exact LY. rewrite strip_app. rewrite <- Ey.
      assert (I : toks sh xs = inter xs (ts ++ [0])).
      { rewrite <- (E2 0), inter_W by (try exact P; exact LN). cbn. rewrite app_nil_r. reflexivity. }
      rewrite I. apply rows_frag; [exact Sh| |rewrite LT, app_length; cbn; lia]. apply Forall_app. split; [exact E3|repeat constructor; lia].
  Qed.
End Lex.
