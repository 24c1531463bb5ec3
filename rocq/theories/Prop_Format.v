(* Prop_Format.v -- the text of arrays (C112) and reading text by cells (C113). *)
From Verif Require Import Base M_Array S_Array P_Array M_Scan S_Scan P_Scan M_Strings M_Format S_Format P_Format P_Format2 P_Format3.
From Coq Require Import Lia.

Section C112.
  Context {A : Type} (C : scanner) (num : text -> option A) (str : text -> A) (show : A -> text).
  Definition readable_elems (v : arr A) : Prop := Forall (fun x => readable C num str (show x) x) (elems v).

  Lemma nonempty_facts : forall v : arr A, nonempty v -> pos_dims (dims v) /\ length (elems v) = nsize (dims v) /\ zlen (elems v) = size (dims v).
  Proof.
    intros v ((_ & _ & W) & P). split; [exact P|]. split; [|exact W]. unfold nsize, zlen in *. lia.
  Qed.
  (* the format ¯2 *)
  Theorem C112_json : forall v, nonempty v -> readable_elems v ->
    exists t, jsonArray show v = Ok t /\ ParseArray C num str t = Ok (Cell v).
  Proof.
    intros v NE R. assert (N := proj1 (proj1 NE)). destruct (nonempty_facts v NE) as (P & L & _).
    destruct (json_frag C num str show (dims v) (elems v) N P ltac:(lia) R) as (t & E1 & E2). exists t. split; [exact E1|].
    apply frag_done in E2. rewrite firstn_all2 in E2 by lia. rewrite (read_closed C num str t _ _ N P L E2). destruct v. reflexivity.
  Qed.
  (* the format ¯1: leading axes of length 1 are lost *)
  Theorem C112_table : forall pad v, nonempty v -> readable_elems v ->
    ParseArray C num str (tableArray show pad v) = Ok (Cell (mkArr (no_leading_ones (dims v)) (elems v))).
  Proof.
    intros pad v NE R. assert (N := proj1 (proj1 NE)). destruct (nonempty_facts v NE) as (P & L & LZ).
    apply read_open; [exact N|exact P|exact L|]. apply frag_done, table_frag; assumption.
  Qed.
  Corollary C112_table_same : forall pad v, nonempty v -> readable_elems v ->
    (zlen (dims v) = 1 \/ exists d s, dims v = d :: s /\ 2 <= d) ->
    ParseArray C num str (tableArray show pad v) = Ok (Cell v).
  Proof.
    intros pad v NE R H. assert (N := proj1 (proj1 NE)).
    rewrite C112_table by assumption. destruct v as [ds xs]. cbn [dims elems] in *.
    assert (E : no_leading_ones ds = ds); [|rewrite E; reflexivity].
    destruct H as [H|(d & s & -> & D)].
    - destruct ds as [|d [|d' ds]]; [congruence|reflexivity|]. rewrite !zlen_cons in H. unfold zlen in H. lia.
    - cbn. destruct s; [reflexivity|]. replace (d =? 1) with false by lia. reflexivity.
  Qed.
  (* the format ¯3, for vectors and matrices *)
  Theorem C112_matrix : forall v, nonempty v -> readable_elems v ->
    (exists n, dims v = [n]) \/ (exists r c, dims v = [r; c] /\ 2 <= r) ->
    exists t, matArray show v = Ok t /\ ParseArray C num str t = Ok (Cell v).
  Proof.
    intros v NE R H. destruct (nonempty_facts v NE) as (P & L & _). destruct v as [ds xs]. unfold readable_elems in R. cbn [dims elems] in *.
    destruct H as [(n & ->)|(r & c & -> & Hr)].
    - destruct (C112_json (mkArr [n] xs) NE R) as (t & E1 & E2). exists t. split; [|exact E2].
      unfold jsonArray in E1. cbn [json_vector dims elems] in E1. unfold matArray. cbn [dims elems].
      destruct (zlen (map show xs) <? n); [discriminate|]. injection E1 as <-.
      rewrite firstn_all2; [reflexivity|]. rewrite map_length, L. unfold nsize. cbn [size]. lia.
    - inversion P as [|? ? Hr1 P2]; subst. inversion P2 as [|? ? Hc _]; subst.
      destruct (nsize_cons r [c] Hr1 P2) as (NS & _). rewrite NS in L.
      assert (NC : nsize [c] = Z.to_nat c) by (unfold nsize; cbn [size]; f_equal; lia). rewrite NC in L.
      assert (D : exists n, Z.to_nat r = S n) by (exists (Z.to_nat (r - 1)); lia). destruct D as (n & Dn). rewrite Dn in L.
      destruct (mat_frag C num str show n c xs Hc L R) as (t & E1 & E2). unfold matArray. cbn [dims elems]. rewrite Dn, E1. cbn [obind].
      exists ([r_lbrack] ++ t ++ [r_rbrack]). split; [reflexivity|].
      assert (F : lexes C num str ([r_lbrack] ++ t ++ [r_rbrack]) (toks [r; c] xs ++ [K])).
      { apply frag_done. change (toks [r; c] xs ++ [K]) with ([] ++ toks [r; c] xs ++ [K]).
        apply sfrag_app; [apply (sk_lbrack C num str)|]. apply frag_app; [|apply (cl_rbrack C num str)|apply sfrag_frag, (cl_rbrack C num str)].
        rewrite toks_cons. rewrite NC, Dn. exact E2. }
      assert (LX : length xs = nsize [r; c]) by (rewrite NS, NC, Dn; exact L).
      destruct (zlen_elems [r; c] xs P LX) as (ZL & NX).
      assert (SE : seen [r; c] = [c]) by (cbn; replace (2 <=? r) with true by lia; reflexivity).
      assert (T : tscan (-1) [] 0 [] (toks [r; c] xs ++ [K]) = Ok (xs, [c], [])).
      { rewrite toks_first by (try assumption; lia). rewrite SE. rewrite tscan_K by exact NX. reflexivity. }
      destruct (scan_rank C num str _ _ (-1) xs [c] [] F ltac:(lia) T NX) as (rest & _ & _ & E). unfold ParseArray. rewrite E.
      change (-1 <? 0) with true. cbn iota zeta. rewrite ZL. change (zlen [c]) with 1.
      replace (Prod [c] =? size [r; c]) with false by (rewrite Prod_size by discriminate; cbn [size]; nia).
      change (Z.to_nat (1 + 1)) with 2%nat. cbn [lead_axes]. change (zlen [c]) with 1. change (0 <=? 1 - 1) with true. cbn iota.
      rewrite Prod_size by discriminate. cbn [size]. rewrite !Z.mul_1_r. replace (c =? 0) with false by lia.
      rewrite Z.quot_mul by lia. rewrite Prod_size by discriminate. cbn [size]. rewrite !Z.mul_1_r, Z.eqb_refl.
      change (zlen [r; c]) with 2. change (0 + 1 <=? 1 - 2) with false. reflexivity.
  Qed.
End C112.

(* integers, booleans and strings are read back *)
Theorem C112_elements : forall (B : Type) (C : scanner) (oshow : B -> text) (oparse : text -> option B) (quote : text -> text),
  quotes C quote -> forall e, (match e with EInt z => - 2 ^ 63 <= z < 2 ^ 63 | EOther _ => False | _ => True end) ->
  readable C (towerParse oparse) (@EString B) (eltString oshow quote e) e.
Proof.
  intros B C oshow oparse quote Q e H. destruct e as [b|z|s|a]; [| | |contradiction].
  - left. split; [destruct b; discriminate|]. split; [destruct b; repeat constructor|destruct b; reflexivity].
  - left. destruct (intString_runes z) as (N & F & _). split; [exact N|]. split; [exact F|]. apply towerParse_int. unfold int64. lia.
  - right. destruct (Q s) as (b & E1 & E2 & E3). exists b, s. cbn [eltString]. split; [exact E1|]. split; [exact E2|]. split; [exact E3|reflexivity].
Qed.
Print Assumptions C112_json.
Print Assumptions C112_table_same.
Print Assumptions C112_matrix.
Print Assumptions C112_elements.

(* A scanner for the examples. *)
Definition exU : unicode := mkUnicode (fun _ => false) (fun _ => false) (fun _ => false) (fun _ => false).
Definition exC : scanner := mkScanner exU (fun _ => None) (fun _ => None) (fun _ => None).
Definition exnum : text -> option (elt Empty_set) := towerParse (fun _ => None).
Definition exshow : elt Empty_set -> text := eltString (fun e : Empty_set => match e with end) (fun s => s).
Definition exread := ParseArray exC exnum (@EString Empty_set).
Definition ints (l : list Z) : list (elt Empty_set) := map EInt l.
(* 2 2⍴1 ¯2 30 4 in the three formats *)
Example C112_example :
  jsonArray exshow (mkArr [2; 2] (ints [1; -2; 30; 4])) = Ok [91; 91; 49; 44; 175; 50; 93; 44; 91; 51; 48; 44; 52; 93; 93]
  /\ exread [91; 91; 49; 44; 175; 50; 93; 44; 91; 51; 48; 44; 52; 93; 93] = Ok (Cell (mkArr [2; 2] (ints [1; -2; 30; 4])))
  /\ tableArray exshow (fun _ => 0%nat) (mkArr [2; 2] (ints [1; -2; 30; 4])) = [32; 49; 32; 175; 50; 10; 32; 51; 48; 32; 52]
  /\ exread [32; 49; 32; 175; 50; 10; 32; 51; 48; 32; 52] = Ok (Cell (mkArr [2; 2] (ints [1; -2; 30; 4])))
  /\ nonempty (mkArr [2; 2] (ints [1; -2; 30; 4])) /\ readable_elems exC exnum (@EString Empty_set) exshow (mkArr [2; 2] (ints [1; -2; 30; 4])).
Proof.
  split; [reflexivity|]. split; [reflexivity|]. split; [reflexivity|]. split; [reflexivity|]. split.
  - split; [split; [discriminate|split; [repeat (constructor; [lia|]); constructor|reflexivity]]|repeat (constructor; [cbn; lia|]); constructor].
  - unfold readable_elems. cbn [elems ints map]. repeat (apply Forall_cons; [left; split; [discriminate|]; split; [repeat constructor|reflexivity]|]). apply Forall_nil.
Qed.
(* a matrix with one row is read as a vector *)
Theorem C112_one_row_refuted :
  exread (tableArray exshow (fun _ => 0%nat) (mkArr [1; 3] (ints [1; 2; 3]))) = Ok (Cell (mkArr [3] (ints [1; 2; 3])))
  /\ exists t, matArray exshow (mkArr [1; 3] (ints [1; 2; 3])) = Ok t /\ exread t = Ok (Cell (mkArr [3] (ints [1; 2; 3]))).
Proof. split; [reflexivity|]. eexists. split; reflexivity. Qed.
(* numbers that are printed with - or + are not read back *)
Theorem C112_sign_refuted : forall (A : Type) (C : scanner) (num : text -> option A) (str : text -> A) (show : A -> text) x w,
  num [] = None -> show x = 45 :: w \/ show x = 43 :: w -> s_unicode C = exU ->
  exists t, jsonArray show (mkArr [1] [x]) = Ok t /\ ParseArray C num str t = Err.
Proof.
  intros A C num str show x w N H U. exists ([r_lbrack] ++ show x ++ [r_rbrack]). split; [reflexivity|].
  unfold ParseArray, ScanRankArray. cbn [app length scan_loop]. unfold skipped at 1. rewrite U.
  change (closing r_lbrack) with false. change (IsSpace exU r_lbrack || in_runes r_lbrack [r_comma; r_lbrack; r_lparen; r_rparen]) with true. cbn iota.
  destruct H as [->| ->]; cbn [app length scan_loop]; unfold skipped; rewrite U; cbn; rewrite N; reflexivity.
Qed.

Section C113.
  Context {A : Type} (C : scanner) (num : text -> option A) (str : text -> A) (show : A -> text).
  Local Notation readable_elems := (readable_elems C num str show).
  Local Notation read k t := (read_cells C num str (S (length (t : text))) k t).
  Lemma cells_chunks : forall out cs (xs : list A), pos_dims out -> pos_dims cs ->
    cells_of cs (mkArr (out ++ cs) xs) = map (fun c => mkArr cs c) (chunks (nsize cs) (nsize out) xs).
  Proof.
    intros out cs xs P1 P2. unfold cells_of, chunks. cbn [dims elems]. pose proof (size_pos _ P1). pose proof (size_pos _ P2).
    rewrite size_app, Z.div_mul by lia. rewrite map_map. unfold zseq. rewrite map_map. fold (nsize out). apply map_ext. intros i.
    f_equal. unfold nsize. f_equal. f_equal. lia.
  Qed.
  (* the table format: the text ends with the last cell *)
  Theorem C113_table : forall pad out cs xs, nonempty (mkArr (out ++ cs) xs) -> readable_elems (mkArr (out ++ cs) xs) -> cs <> [] ->
    (zlen cs <= 2 \/ 2 <= nth 0 cs 0 \/ 2 <= nth 1 cs 0) ->
    read (zlen cs) (tableArray show pad (mkArr (out ++ cs) xs)) = map (fun a => Some (Cell a)) (cells_of cs (mkArr (out ++ cs) xs)).
  Proof.
    intros pad out cs xs NE R N H. destruct (nonempty_facts _ NE) as (P & L & LZ). cbn [dims elems] in *.
    assert (P2 := P). apply Forall_app in P2. destruct P2 as (Po & Pc).
    rewrite cells_chunks by assumption. rewrite map_map.
    assert (SO : short_ok cs).
    { unfold short_ok. destruct cs as [|a [|b cs']]; [congruence|cbn; lia|]. inversion Pc as [|? ? Ha Pc2]; subst. inversion Pc2 as [|? ? Hb _]; subst.
      cbn [seen length]. destruct (2 <=? a) eqn:Qa; [cbn; lia|]. destruct (2 <=? b) eqn:Qb; [cbn; lia|].
      rewrite !zlen_cons in H. cbn [nth] in H.
      destruct cs'; [cbn; lia|]. rewrite zlen_cons in H. unfold zlen in H. lia. }
    apply (celled_read C num str cs Pc N (chunks (nsize cs) (nsize out) xs) (toks (out ++ cs) xs ++ repeat K 0)) with (n := 0%nat).
    - apply (celled_toks num str); [exact Pc|exact Po|exact L|right; split; [reflexivity|exact SO]].
    - cbn [repeat app]. rewrite app_nil_r. apply frag_done. apply (table_frag C num str show pad (mkArr (out ++ cs) xs)); cbn [dims elems]; try assumption.
      destruct out; [exact N|discriminate].
    - lia.
  Qed.
  (* the format ¯2: every axis is closed *)
  Theorem C113_json : forall out cs xs, nonempty (mkArr (out ++ cs) xs) -> readable_elems (mkArr (out ++ cs) xs) -> cs <> [] ->
    exists t, jsonArray show (mkArr (out ++ cs) xs) = Ok t /\
      read (zlen cs) t = map (fun a => Some (Cell a)) (cells_of cs (mkArr (out ++ cs) xs)).
  Proof.
    intros out cs xs NE R N. destruct (nonempty_facts _ NE) as (P & L & LZ). cbn [dims elems] in *.
    assert (P2 := P). apply Forall_app in P2. destruct P2 as (Po & Pc).
    assert (N2 : out ++ cs <> []) by (destruct out; [exact N|discriminate]).
    destruct (json_frag C num str show (out ++ cs) xs N2 P ltac:(lia) R) as (t & E1 & E2). exists t. split; [exact E1|].
    rewrite cells_chunks by assumption. rewrite map_map. apply frag_done in E2. rewrite firstn_all2 in E2 by lia.
    apply (celled_read C num str cs Pc N (chunks (nsize cs) (nsize out) xs) (toks (out ++ cs) xs ++ repeat K (length (out ++ cs)))) with (n := 0%nat).
    - apply (celled_toks num str); [exact Pc|exact Po|exact L|left; rewrite app_length; lia].
    - exact E2.
    - lia.
  Qed.
  (* rank 0: the elements *)
  Theorem C113_scalars : forall pad v, nonempty v -> readable_elems v ->
    read 0 (tableArray show pad v) = map (fun x => Some (Atom x)) (elems v)
    /\ exists t, jsonArray show v = Ok t /\ read 0 t = map (fun x => Some (Atom x)) (elems v).
  Proof.
    intros pad v NE R. assert (N := proj1 (proj1 NE)). destruct (nonempty_facts _ NE) as (P & L & LZ). split.
    - rewrite (scalars_read C num str _ _ (toks (dims v) (elems v))); [|apply frag_done, table_frag; assumption|lia].
      rewrite atoms_toks by assumption. reflexivity.
    - destruct (json_frag C num str show (dims v) (elems v) N P ltac:(lia) R) as (t & E1 & E2). exists t. split; [exact E1|].
      apply frag_done in E2. rewrite firstn_all2 in E2 by lia. rewrite (scalars_read C num str _ _ _ E2) by lia.
      rewrite atoms_app, atoms_K, app_nil_r, atoms_toks by assumption. reflexivity.
  Qed.
End C113.
Print Assumptions C113_table.
Print Assumptions C113_json.
Print Assumptions C113_scalars.
(* the matrices of a 2 2 2 array *)
Example C113_example : let t := tableArray exshow (fun _ => 0%nat) (mkArr [2; 2; 2] (ints [1; 2; 3; 4; 5; 6; 7; 8])) in
  read_cells exC exnum (@EString Empty_set) (S (length t)) 2 t =
    [Some (Cell (mkArr [2; 2] (ints [1; 2; 3; 4]))); Some (Cell (mkArr [2; 2] (ints [5; 6; 7; 8])))].
Proof. reflexivity. Qed.
(* the last cell of shape 1 1 3 comes as a matrix *)
Theorem C113_last_refuted : let t := tableArray exshow (fun _ => 0%nat) (mkArr [2; 1; 1; 3] (ints [1; 2; 3; 4; 5; 6])) in
  read_cells exC exnum (@EString Empty_set) (S (length t)) 3 t =
    [Some (Cell (mkArr [1; 1; 3] (ints [1; 2; 3]))); Some (Cell (mkArr [1; 3] (ints [4; 5; 6])))].
Proof. reflexivity. Qed.
