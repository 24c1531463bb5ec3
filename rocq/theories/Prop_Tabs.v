(* Prop_Tabs.v -- C173: printed columns are aligned. *)
From Verif Require Import Base M_Array M_Scan M_Strings M_Format M_Tabs S_Tabs P_Tabs S_Format Prop_Format.
Local Open Scope nat_scope.

(* ---------- one line in the terms of a reader ---------- *)
Lemma placed_length right w c : length c <= w -> length (placed right w c) = w.
Proof. intros H. unfold placed, blanks. destruct right; rewrite app_length, repeat_length; lia. Qed.
Lemma widest_in rows r j : In r rows -> length (nth j r []) <= widest j rows.
Proof. unfold widest. induction rows as [|x rows IH]; intros []; cbn [map fold_right]; [subst; lia|]. specialize (IH H). lia. Qed.
Lemma widest_tight rows j : rows <> [] -> exists r, In r rows /\ widest j rows = length (nth j r []).
Proof.
  induction rows as [|x rows IH]; intros N; [congruence|]. destruct rows as [|y rows].
  - exists x. split; [left; reflexivity|]. unfold widest. cbn [map fold_right]. apply Nat.max_0_r.
  - destruct (IH ltac:(discriminate)) as (r & Hr & E). rewrite widest_cons.
    destruct (Nat.max_spec (length (nth j x [])) (widest j (y :: rows))) as [(_ & M)|(_ & M)].
    + exists r. split; [right; exact Hr|]. rewrite <- E. exact M.
    + exists x. split; [left; reflexivity|]. exact M.
Qed.

(* C173 (any text): a text of rows of cells, separated by tabs, prints line by line; each cell which
   is not the last of its line is filled with blanks to one more than the widest cell of the same
   column in the adjacent lines which have that column *)
Theorem C173_any_rows : forall right rows, Forall (fun r => r <> [] /\ Forall plain r) rows ->
  tabwrite right (concat (map (fun r => Join r [r_tab] ++ [r_newline]) rows)) =
  Join (aligned_lines right [] (rows ++ [[([] : text)]]) []) [r_newline].
Proof. intros right rows F. rewrite tabwrite_spec, lines_of_rows by exact F. reflexivity. Qed.

(* ---------- matrices ---------- *)
Lemma Join_cells (ts : list text) c : Join (ts ++ [([] : text)]) [c] = concat (map (fun t => t ++ [c]) ts).
Proof.
  induction ts as [|t ts IH]; [reflexivity|]. cbn [app map concat]. rewrite <- IH. destruct (ts ++ [([] : text)]) as [|q qs] eqn:Q; [destruct ts; discriminate|].
  change (Join (t :: q :: qs) [c]) with (t ++ [c] ++ Join (q :: qs) [c]). rewrite <- app_assoc. reflexivity.
Qed.
Section Matrix.
  Context {A : Type} (show : A -> text).
  Lemma array_row m n i rest : (0 <= i < m)%Z -> forall r k, (Z.of_nat k + zlen r = n)%Z -> r <> [] ->
    array_cells show [Z.of_nat k; i] [n; m] (r ++ rest) =
    Join (map show r ++ [([] : text)]) [r_tab] ++ [r_newline] ++
    array_cells show (if (i + 1 =? m)%Z then [0; 0]%Z else [0; i + 1]%Z) [n; m] rest \/ (i + 1 = m)%Z /\ rest <> [].
  Proof.
    intros Hi. induction r as [|x r IH]; intros k Hk N; [congruence|]. cbn [app array_cells inc_from]. rewrite zlen_cons in Hk.
    rewrite Join_cells. cbn [map concat]. destruct r as [|y r].
    - rewrite zlen_nil in Hk. replace (Z.of_nat k + 1 =? n)%Z with true by lia. destruct (i + 1 =? m)%Z eqn:Q.
      + destruct rest as [|z rest]; [left|right; split; [lia|discriminate]]. cbn. rewrite app_nil_r, <- app_assoc. reflexivity.
      + left. change (0 + 1)%Z with 1%Z. change (0 <? 1)%Z with true. cbn iota. change (Z.to_nat 1) with 1. cbn [repeat app map concat]. rewrite app_nil_r, <- !app_assoc. reflexivity.
    - rewrite zlen_cons in Hk. pose proof (zlen_nonneg r). replace (Z.of_nat k + 1 =? n)%Z with false by lia. change (0 <? 0)%Z with false. change (0 =? -1)%Z with false. cbn iota.
      replace (Z.of_nat k + 1)%Z with (Z.of_nat (S k)) by lia. destruct (IH (S k) ltac:(rewrite zlen_cons; lia) ltac:(discriminate)) as [E|E]; [left|right; exact E].
      rewrite E, Join_cells. cbn [app map concat]. rewrite <- !app_assoc. reflexivity.
  Qed.
  Lemma array_rows m n : (0 < n)%Z -> forall rows i, (0 <= i)%Z -> (i + zlen rows = m)%Z -> rows <> [] -> Forall (fun r => zlen r = n) rows ->
    array_cells show [0; i]%Z [n; m] (concat rows) = concat (map (fun r => Join r [r_tab] ++ [r_newline]) (map (fun r => map show r ++ [([] : text)]) rows)).
  Proof.
    intros Hn. induction rows as [|r rows IH]; intros i Hi Hm N F; [congruence|]. inversion F as [|? ? Hr Fr]; subst. rewrite zlen_cons in *. pose proof (zlen_nonneg rows).
    assert (Nr : r <> []) by (destruct r; [unfold zlen in Hn; cbn in Hn; lia|discriminate]).
    cbn [concat map]. change 0%Z with (Z.of_nat 0) at 1.
    destruct (array_row (i + (1 + zlen rows)) (zlen r) i (concat rows) ltac:(lia) r 0 ltac:(lia) Nr) as [E|(E1 & E2)].
    - etransitivity; [exact E|]. rewrite <- app_assoc. f_equal. f_equal. destruct rows as [|r2 rows].
      + reflexivity.
      + replace (i + 1 =? i + (1 + zlen (r2 :: rows)))%Z with false by (rewrite zlen_cons; pose proof (zlen_nonneg rows); lia).
        apply IH; try lia; try discriminate; exact Fr.
    - destruct rows as [|r2 rows]; [cbn in E2; congruence|]. rewrite zlen_cons in E1. pose proof (zlen_nonneg rows). lia.
  Qed.

  (* C173 (matrix): a matrix prints row by row; the texts of the elements of a column end at the same
     place, one blank behind the column before, and the column is as wide as its widest element *)
  Theorem C173_matrix : forall (rows : list (list A)) n, (0 < n)%Z -> rows <> [] -> Forall (fun r => zlen r = n) rows ->
    Forall (fun r => Forall (fun x => plain (show x)) r) rows ->
    let cells := map (map show) rows in
    array_text show (mkArr [zlen rows; n] (concat rows)) =
    Join (map (fun r => concat (map (fun j => placed true (table_width cells j) (nth j r [])) (seq 0 (length r)))) cells) [r_newline].
  Proof.
    intros rows n Hn N F P cells. unfold array_text. cbn [dims elems length rev app]. change (zerosZ 2) with [0; 0]%Z.
    rewrite (array_rows (zlen rows) n Hn rows 0) by (try lia; assumption).
    set (R := map (fun r => map show r ++ [([] : text)]) rows).
    assert (FR : Forall (fun r => length r = S (Z.to_nat n) /\ Forall plain r) R).
    { apply Forall_forall. intros r Hr. apply in_map_iff in Hr as (x & <- & Hx). rewrite Forall_forall in F, P. specialize (F x Hx). specialize (P x Hx). split.
      - rewrite app_length, map_length. cbn [length]. unfold zlen in F. lia.
      - apply Forall_app. split; [apply Forall_map; exact P|]. constructor; [split; intros []|constructor]. }
    etransitivity; [exact (f_equal strip_newline (tabwrite_rect true (Z.to_nat n) R ltac:(unfold R; destruct rows; [congruence|discriminate]) FR))|].
    rewrite strip_newline_app. f_equal. unfold R, cells. rewrite !map_map. apply map_ext_in. intros r Hr.
    assert (Lr : zlen r = n) by (rewrite Forall_forall in F; exact (F r Hr)). unfold aligned. rewrite app_length, map_length. cbn [length]. rewrite Nat.add_sub.
    rewrite app_nth2, map_length, Nat.sub_diag by (rewrite map_length; lia). cbn [nth]. rewrite app_nil_r, ?map_length. f_equal. apply map_ext_in. intros j Hj. apply in_seq in Hj.
    rewrite app_nth1 by (rewrite map_length; lia). f_equal. unfold table_width. f_equal. 
    assert (Hn' : j < Z.to_nat n) by (unfold zlen in Lr; lia). clear - F Hn'.
    assert (G : forall ls, Forall (fun r => zlen r = n) ls -> widest j (map (fun r => map show r ++ [([] : text)]) ls) = widest j (map (map show) ls)).
    { induction 1 as [|x ls Hx _ IH]; [reflexivity|]. cbn [map]. rewrite !widest_cons, IH. f_equal. f_equal. apply app_nth1. rewrite map_length. unfold zlen in *. lia. }
    apply G. exact F.
  Qed.

  (* every row of the matrix has the same length *)
  Theorem C173_rows_even : forall (rows : list (list A)) n, Forall (fun r => zlen r = n) rows ->
    let cells := map (map show) rows in
    forall r, In r cells -> length (concat (map (fun j => placed true (table_width cells j) (nth j r [])) (seq 0 (length r)))) =
      fold_right Nat.add 0 (map (table_width cells) (seq 0 (Z.to_nat n))).
  Proof.
    intros rows n F cells r Hr. replace (Z.to_nat n) with (length r).
    - assert (G : forall js, length (concat (map (fun j => placed true (table_width cells j) (nth j r [])) js)) = fold_right Nat.add 0 (map (table_width cells) js)).
      { induction js as [|j js IH]; [reflexivity|]. cbn [map concat fold_right]. rewrite app_length, IH, placed_length; [reflexivity|].
        unfold table_width. pose proof (widest_in cells r j Hr). unfold text in *. lia. }
      apply G.
    - unfold cells in Hr. apply in_map_iff in Hr as (x & <- & Hx). rewrite Forall_forall in F. specialize (F x Hx). rewrite map_length. unfold zlen in F. lia.
  Qed.

  (* ---------- arrays of any rank ---------- *)
  Inductive padded : list text -> text -> Prop :=
  | padded_last c : padded [c] c
  | padded_more p c l o : padded l o -> padded (c :: l) (repeat r_space (S p) ++ c ++ o).
  Lemma aligned_padded : forall (l : list text) w, l <> [] -> (forall j, j < length l - 1 -> length (nth j l []) < w j) -> padded l (aligned true w l).
  Proof.
    assert (G : forall (l : list text) w k, l <> [] -> (forall j, j < length l - 1 -> length (nth j l []) < w (k + j)) ->
      padded l (concat (map (fun j => placed true (w j) (nth (j - k) l [])) (seq k (length l - 1))) ++ nth (length l - 1) l [])).
    { induction l as [|c l IH]; intros w k N H; [congruence|]. destruct l as [|d l]; [constructor|].
      change (length (c :: d :: l) - 1) with (S (length l)) in *. cbn [seq map concat]. rewrite Nat.sub_diag. change (nth 0 (c :: d :: l) []) with c.
      unfold placed at 1, blanks. specialize (H 0) as H0. cbn [nth] in H0. rewrite Nat.add_0_r in H0. specialize (H0 ltac:(lia)).
      replace (w k - length c) with (S (w k - length c - 1)) by lia. rewrite <- !app_assoc. constructor.
      specialize (IH w (S k) ltac:(discriminate)). change (length (d :: l) - 1) with (length l - 0) in IH. rewrite Nat.sub_0_r in IH.
      change (nth (S (length l)) (c :: d :: l) []) with (nth (length l) (d :: l) []).
      replace (map (fun j => placed true (w j) (nth (j - k) (c :: d :: l) [])) (seq (S k) (length l)))
        with (map (fun j => placed true (w j) (nth (j - S k) (d :: l) [])) (seq (S k) (length l))).
      - apply IH. intros j Hj. specialize (H (S j) ltac:(lia)). rewrite Nat.add_succ_r in H. exact H.
      - apply map_ext_in. intros j Hj. apply in_seq in Hj. replace (j - k) with (S (j - S k)) by lia. reflexivity. }
    intros l w N H. specialize (G l w 0 N H). unfold aligned.
    erewrite map_ext; [exact G|]. intros j. cbv beta. rewrite Nat.sub_0_r. reflexivity.
  Qed.
  Lemma lines_padded : forall lines above below, Forall (fun l => 1 <= length l) lines -> Forall2 padded lines (aligned_lines true above lines below).
  Proof.
    induction lines as [|l lines IH]; intros above below F; [constructor|]. inversion F; subst. cbn [aligned_lines]. constructor.
    - apply aligned_padded; [intros ->; cbn in *; lia|]. intros j _. unfold column_width. lia.
    - apply IH. assumption.
  Qed.
  Lemma table_rows_pad : forall xs p q n idx shape, (forall k, n <= k -> p k = q k) -> table_rows show p n idx shape xs = table_rows show q n idx shape xs.
  Proof.
    induction xs as [|x xs IH]; intros p q n idx shape H; [reflexivity|]. cbn [table_rows]. destruct (inc_from 0 idx shape). rewrite (H n) by lia.
    rewrite (IH p q) by (intros k Hk; apply H; lia). reflexivity.
  Qed.
  Lemma lines_of_cons c s : exists l ls, lines_of s = l :: ls /\ (plain c -> lines_of (c ++ [r_tab] ++ s) = (c :: l) :: ls).
  Proof.
    unfold lines_of. destruct (split_at r_newline s) as [|t ts] eqn:E; [exfalso; exact (split_at_nonempty _ _ E)|]. cbn [map]. exists (split_at r_tab t), (map (split_at r_tab) ts).
    split; [reflexivity|]. intros (P1 & P2).
    assert (G : forall u, ~ In r_newline u -> split_at r_newline (u ++ s) = (u ++ t) :: ts).
    { induction u as [|x u IH]; intros N; [exact E|]. cbn [app split_at]. replace (x =? r_newline)%Z with false by (symmetry; apply Z.eqb_neq; intros ->; apply N; left; reflexivity).
      rewrite IH by (intros Q; apply N; right; exact Q). reflexivity. }
    rewrite app_assoc, G by (rewrite in_app_iff; intros [Q|[Q|[]]]; [exact (P2 Q)|discriminate Q]). cbn [map]. f_equal.
    rewrite <- app_assoc. apply split_at_app. exact P1.
  Qed.
  Lemma lines_of_newlines t s : lines_of (repeat r_newline t ++ s) = repeat [([] : text)] t ++ lines_of s.
  Proof. induction t as [|t IH]; [reflexivity|]. cbn [repeat app]. unfold lines_of in *. cbn [split_at]. rewrite Z.eqb_refl. cbn [map]. rewrite IH. reflexivity. Qed.
  Lemma padded_blank_lines t lines outs : Forall2 padded (repeat [([] : text)] t ++ lines) outs -> exists outs', outs = repeat ([] : text) t ++ outs' /\ Forall2 padded lines outs'.
  Proof.
    revert outs. induction t as [|t IH]; intros outs H; [exists outs; split; [reflexivity|exact H]|]. cbn [repeat app] in H. inversion H as [|? o ? os Ho Hos]; subst.
    inversion Ho as [|? ? ? ? Q]; subst; [|inversion Q]. destruct (IH _ Hos) as (outs' & -> & H'). exists outs'. split; [reflexivity|exact H'].
  Qed.
  Lemma Join_blanks t outs : outs <> [] -> Join (repeat ([] : text) t ++ outs) [r_newline] = repeat r_newline t ++ Join outs [r_newline].
  Proof.
    intros N. induction t as [|t IH]; [reflexivity|]. cbn [repeat app]. rewrite <- IH. destruct (repeat ([] : text) t ++ outs) as [|q qs] eqn:Q; [|reflexivity].
    apply app_eq_nil in Q as (_ & Q). congruence.
  Qed.
  Lemma array_padded : forall xs, Forall (fun x => plain (show x)) xs -> forall n idx shape outs,
    Forall2 padded (lines_of (array_cells show idx shape xs)) outs -> exists pad, Join outs [r_newline] = table_rows show pad n idx shape xs.
  Proof.
    induction 1 as [|x xs Px _ IH]; intros n idx shape outs H.
    - cbn [array_cells] in H. inversion H as [|? o ? os Ho Hos]; subst. inversion Hos; subst. inversion Ho as [|? ? ? ? Q]; subst; [|inversion Q]. exists (fun _ => 0). reflexivity.
    - cbn [array_cells] in H. destruct (inc_from 0 idx shape) as [idx' term] eqn:EI.
      set (t := if (0 <? term)%Z then Z.to_nat term else if (term =? -1)%Z then 1 else 0).
      assert (ET : (if (0 <? term)%Z then repeat r_newline (Z.to_nat term) else if (term =? -1)%Z then [r_newline] else []) = repeat r_newline t).
      { unfold t. destruct (0 <? term)%Z; [reflexivity|]. destruct (term =? -1)%Z; reflexivity. }
      rewrite ET in H. destruct (lines_of_cons (show x) (repeat r_newline t ++ array_cells show idx' shape xs)) as (l & ls & E1 & E2). rewrite E2 in H by exact Px. 
      inversion H as [|? o ? os Ho Hos]; subst. inversion Ho as [? Q1|p ? ? o' Ho' Q1 Q2]; subst.
      { pose proof (lines_of_nonempty (repeat r_newline t ++ array_cells show idx' shape xs)) as F. rewrite E1 in F. inversion F as [|? ? F1 _]. cbn in F1. lia. }
      assert (H2 : Forall2 padded (repeat [([] : text)] t ++ lines_of (array_cells show idx' shape xs)) (o' :: os)).
      { rewrite <- lines_of_newlines, E1. constructor; assumption. }
      destruct (padded_blank_lines _ _ _ H2) as (outs' & E3 & H3). destruct (IH (S n) idx' shape outs' H3) as (pad & E4).
      exists (fun k => if Nat.eqb k n then p else pad k). cbn [table_rows]. rewrite EI, ET, Nat.eqb_refl.
      rewrite (table_rows_pad xs (fun k => if Nat.eqb k n then p else pad k) pad) by (intros k Hk; replace (Nat.eqb k n) with false by (symmetry; apply Nat.eqb_neq; lia); reflexivity).
      rewrite <- E4, <- Join_blanks.
      + rewrite <- E3. destruct os as [|o2 os]; cbn [Join]; rewrite <- ?app_assoc; reflexivity.
      + intros ->. inversion H3 as [Q|]; subst. unfold lines_of in Q. symmetry in Q. apply map_eq_nil in Q. exact (split_at_nonempty _ _ Q).
  Qed.

  (* C173 (any rank): the text of an array is its elements in order, each with at least one blank
     before it, with newlines where the last axes start again: what the other claims on printed arrays
     say of any number of blanks is true of the text which is printed *)
  Theorem C173_array : forall v, Forall (fun x => plain (show x)) (elems v) -> exists pad, array_text show v = tableArray show pad v.
  Proof.
    intros [ds xs] P. cbn [elems] in P. unfold array_text, tableArray. cbn [dims elems]. destruct ds as [|d ds]; [exists (fun _ => 0); reflexivity|].
    destruct ds as [|d2 ds]; [exists (fun _ => 0); reflexivity|]. rewrite tabwrite_spec.
    destruct (array_padded xs P 0 _ _ _ (lines_padded (lines_of (array_cells show (zerosZ (length (d :: d2 :: ds))) (rev (d :: d2 :: ds)) xs)) [] [] (lines_of_nonempty _))) as (pad & E).
    exists pad. rewrite E. reflexivity.
  Qed.
End Matrix.

(* ---------- dictionaries and tables ---------- *)
(* C173 (dictionary): a dictionary prints one line for each key: the key and a colon, blanks up to one
   more than the longest key with its colon, and the value *)
Theorem C173_dict : forall kvs : list (text * text), kvs <> [] -> Forall (fun kv => plain (fst kv) /\ plain (snd kv)) kvs ->
  let longest := fold_right Nat.max 0 (map (fun kv : text * text => S (length (fst kv))) kvs) in
  dict_text kvs = Join (map (fun kv : text * text => let (k, v) := kv in k ++ [r_colon] ++ blanks (S longest - S (length k)) ++ v) kvs) [r_newline].
Proof.
  intros kvs N F longest. unfold dict_text.
  set (R := map (fun kv : text * text => [fst kv ++ [r_colon]; snd kv]) kvs).
  replace (map (fun kv : text * text => let (k, v) := kv in k ++ [r_colon; r_tab] ++ v ++ [r_newline]) kvs) with (map (fun r => Join r [r_tab] ++ [r_newline]) R).
  2: { unfold R. rewrite map_map. apply map_ext. intros (k & v). cbn [fst snd Join]. rewrite <- !app_assoc. reflexivity. }
  assert (FR : Forall (fun r => length r = 2 /\ Forall plain r) R).
  { unfold R. apply Forall_map. eapply Forall_impl; [|exact F]. intros (k & v) ((K1 & K2) & V). cbn [fst snd] in *. split; [reflexivity|]. constructor; [|constructor; [exact V|constructor]].
    split; rewrite in_app_iff; intros [Q|[Q|[]]]; try discriminate Q; auto. }
  assert (NR : R <> []) by (unfold R; destruct kvs; [congruence|discriminate]).
  rewrite (tabwrite_rect false 1 R NR FR), strip_newline_app. f_equal.
  assert (W : table_width R 0 = S longest).
  { unfold table_width, widest, longest, R. f_equal. clear. induction kvs as [|(k & v) kvs IH]; [reflexivity|]. cbn [map fold_right fst nth] in *. rewrite IH, app_length. cbn [length]. lia. }
  unfold R at 2. rewrite map_map. apply map_ext. intros (k & v). cbn [fst snd]. unfold aligned. cbn [length Nat.sub seq map concat nth]. rewrite W. unfold placed.
  rewrite app_length. cbn [length]. rewrite app_nil_r, <- !app_assoc. replace (length k + 1) with (S (length k)) by lia. reflexivity.
Qed.
(* C173 (table): a table prints the line of its keys and a line for each row, the columns filled to one
   more than their widest text, the last column as it is *)
Theorem C173_table : forall n (header : list text) rows, length header = S n -> Forall plain header -> Forall (fun r => length r = S n /\ Forall plain r) rows ->
  table_text (header :: rows) = Join (map (fun r =>
    concat (map (fun j => placed false (table_width (header :: rows) j) (nth j r [])) (seq 0 n)) ++ nth n r []) (header :: rows)) [r_newline] ++ [r_newline].
Proof.
  intros n header rows L P F. unfold table_text. rewrite (tabwrite_rect false n) by first [discriminate | constructor; [split; assumption|exact F]].
  f_equal. f_equal. apply map_ext_in. intros r Hr. assert (Lr : length r = S n).
  { destruct Hr as [<-|Hr]; [exact L|]. rewrite Forall_forall in F. exact (proj1 (F r Hr)). }
  unfold aligned. unfold text in *. rewrite Lr. replace (S n - 1) with n by lia. reflexivity.
Qed.


(* ---------- reading the printed text ---------- *)
(* C173 (reading): the printed text of an array is read as the array, without leading axes of length 1 *)
Theorem C173_read_back : forall {A} (C : scanner) num str (show : A -> text) (v : arr A), nonempty v -> readable_elems C num str show v ->
  Forall (fun x => plain (show x)) (elems v) ->
  ParseArray C num str (array_text show v) = Ok (Cell (mkArr (no_leading_ones (dims v)) (elems v))).
Proof. intros A C num str show v NE R P. destruct (C173_array show v P) as (pad & ->). apply C112_table; assumption. Qed.

(* a matrix of numbers, two matrices as planes of an array, a dictionary, a table; and a dictionary with a
   value of two lines, whose keys are not adjacent *)
Definition exN (z : Z) : text := if (z <? 10)%Z then [48 + z]%Z else [48 + z / 10; 48 + z mod 10]%Z.
Example C173_example :
  array_text exN (mkArr [2; 3] [1; 10; 3; 4; 5; 60])%Z = [32; 49; 32; 49; 48; 32; 32; 51; 10; 32; 52; 32; 32; 53; 32; 54; 48]%Z
  /\ array_text exN (mkArr [2; 2; 2] [1; 10; 3; 4; 5; 6; 7; 8])%Z =
     [32; 49; 32; 49; 48; 10; 32; 51; 32; 32; 52; 10; 10; 32; 53; 32; 54; 10; 32; 55; 32; 56]%Z
  /\ dict_text [([97], [49]); ([97; 98], [50; 51])]%Z = [97; 58; 32; 32; 49; 10; 97; 98; 58; 32; 50; 51]%Z
  /\ table_text [[[97]; [98]]; [[49; 48]; [51]]]%Z = [97; 32; 32; 98; 10; 49; 48; 32; 51; 10]%Z
  /\ dict_text [([97], [49; 10; 50]); ([98; 98], [51])]%Z = [97; 58; 32; 49; 10; 50; 10; 98; 98; 58; 32; 51]%Z.
Proof. repeat split; vm_compute; reflexivity. Qed.
(* the hypotheses of the theorems hold of them *)
Example C173_example_hyps : Forall (fun r => Forall (fun x => plain (exN x)) r) [[1; 10; 3]; [4; 5; 60]]%Z
  /\ Forall (fun kv : text * text => plain (fst kv) /\ plain (snd kv)) [([97], [49]); ([97; 98], [50; 51])]%Z.
Proof.
  assert (P : forall t : text, forallb (fun r => negb (r =? 9)%Z && negb (r =? 10)%Z) t = true -> plain t).
  { intros t H. rewrite forallb_forall in H. split; intros Q; specialize (H _ Q); discriminate H. }
  split; repeat constructor; apply P; reflexivity.
Qed.

Print Assumptions C173_read_back.
Print Assumptions C173_any_rows. Print Assumptions C173_matrix. Print Assumptions C173_rows_even. Print Assumptions C173_array.
Print Assumptions C173_dict. Print Assumptions C173_table.
