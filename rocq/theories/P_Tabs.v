(* P_Tabs.v -- lemmas for C173: the tabwriter aligns the columns of its lines. *)
From Verif Require Import Base M_Array M_Scan M_Strings M_Format M_Tabs S_Tabs.
Local Open Scope nat_scope.

Lemma has_col_in c l : has_col c l = in_column c l.
Proof. unfold has_col, in_column. destruct (Nat.ltb_spec (S c) (length l)), (Nat.ltb_spec c (length l - 1)); lia || reflexivity. Qed.

Lemma write_line_aligned right : forall ws l w, length l = S (length ws) -> (forall j, j < length ws -> nth j ws 0 = w j) ->
  write_line right ws l = aligned right w l.
Proof.
  assert (G : forall l ws w k, length l = S (length ws) -> (forall j, j < length ws -> nth j ws 0 = w (k + j)) ->
    write_line right ws l = concat (map (fun j => placed right (w j) (nth (j - k) l [])) (seq k (length l - 1))) ++ nth (length l - 1) l []).
  { induction l as [|c l IH]; intros ws w k L Hw; [discriminate|]. destruct ws as [|x ws].
    - cbn in L. destruct l; [|cbn in L; lia]. cbn. rewrite app_nil_r. reflexivity.
    - cbn [length] in L. injection L as L. cbn [write_line length].
      replace (S (length l) - 1) with (S (length l - 1)) by lia. cbn [seq map concat nth].
      rewrite (IH ws w (S k)) by (try lia; intros j Hj; specialize (Hw (S j) ltac:(cbn; lia)); cbn [nth] in Hw; rewrite Hw; f_equal; lia).
      replace (k - k) with 0 by lia. cbn [nth].
      replace (w k) with x by (specialize (Hw 0 ltac:(cbn; lia)); cbn [nth] in Hw; rewrite Nat.add_0_r in Hw; exact Hw).
      rewrite <- app_assoc. f_equal. f_equal. f_equal. apply map_ext_in. intros j Hj. apply in_seq in Hj.
      replace (j - k) with (S (j - S k)) by lia. reflexivity. }
  intros ws l w L Hw. rewrite (G l ws w 0 L) by exact Hw. unfold aligned. f_equal. f_equal. apply map_ext. intros j. rewrite Nat.sub_0_r. reflexivity.
Qed.

Lemma widest_app j a b : widest j (a ++ b) = Nat.max (widest j a) (widest j b).
Proof. unfold widest. induction a as [|x a IH]; [reflexivity|]. cbn [app map fold_right]. rewrite IH. lia. Qed.
Lemma widest_rev j a : widest j (rev a) = widest j a.
Proof. induction a as [|x a IH]; [reflexivity|]. cbn [rev]. rewrite widest_app, IH. unfold widest at 2 3. cbn. fold (widest j a). lia. Qed.
Lemma widest_cons j x a : widest j (x :: a) = Nat.max (length (nth j x [])) (widest j a).
Proof. reflexivity. Qed.
Lemma block_width_widest c lines : block_width c lines = Nat.max 1 (if lines then 0 else S (widest c lines)).
Proof.
  unfold block_width. assert (G : forall ls w, fold_left (fun w l => Nat.max w (length (nth c l []) + 1)) ls w = Nat.max w (if ls then 0 else S (widest c ls))).
  { induction ls as [|l ls IH]; intros w; [cbn; lia|]. cbn [fold_left]. rewrite IH, widest_cons. destruct ls; cbn iota; [change (widest c []) with 0|]; unfold widest, text in *; lia. }
  rewrite G. destruct lines; reflexivity.
Qed.
Lemma neighbours_all j a b : Forall (fun l => in_column j l = true) a -> match b with l :: _ => in_column j l = false | [] => True end -> neighbours j (a ++ b) = a.
Proof.
  induction 1 as [|l a Hl _ IH]; intros Hb; cbn [app neighbours].
  - destruct b as [|l b]; [reflexivity|]. cbn [neighbours]. rewrite Hb. reflexivity.
  - rewrite Hl, IH by exact Hb. reflexivity.
Qed.
Lemma col_block_spec c : forall lines b r, col_block c lines = (b, r) ->
  lines = b ++ r /\ Forall (fun l => in_column c l = true) b /\ match r with l :: _ => in_column c l = false | [] => True end.
Proof.
  induction lines as [|l lines IH]; intros b r E; cbn [col_block] in E; [injection E as <- <-; repeat constructor|].
  rewrite has_col_in in E. destruct (in_column c l) eqn:H.
  - destruct (col_block c lines) as [b' r'] eqn:E2. injection E as <- <-. destruct (IH b' r' eq_refl) as (-> & F & T). repeat split; [|exact T]. constructor; assumption.
  - injection E as <- <-. repeat split; [constructor|exact H].
Qed.
Lemma aligned_lines_app right : forall a above b below,
  aligned_lines right above (a ++ b) below = aligned_lines right above a (b ++ below) ++ aligned_lines right (rev a ++ above) b below.
Proof.
  induction a as [|l a IH]; intros above b below; [reflexivity|]. cbn [app aligned_lines rev]. rewrite IH, <- !app_assoc. reflexivity.
Qed.
Lemma in_column_down c l : in_column c l = false -> in_column (S c) l = false.
Proof. unfold in_column. rewrite !Nat.ltb_ge. lia. Qed.
Definition lacks (c : nat) (ls : list (list text)) : Prop := match ls with l :: _ => in_column c l = false | [] => True end.

Lemma format_tabs_spec right MX : forall fuel ws lines above below,
  length lines + (MX - length ws) < fuel -> Forall (fun l => length ws < length l <= MX) lines ->
  (lacks (length ws) above \/ lacks (length ws) lines) -> lacks (length ws) below ->
  (forall a l b, lines = a ++ l :: b -> forall j, j < length ws -> nth j ws 0 = column_width (rev a ++ above) l (b ++ below) j) ->
  format_tabs fuel right ws lines = aligned_lines right above lines below.
Proof.
  induction fuel as [|fuel IH]; intros ws lines above below Hf HL HA HB HW; [lia|]. destruct lines as [|l r]; [reflexivity|]. cbn [format_tabs].
  rewrite has_col_in. destruct (in_column (length ws) l) eqn:H.
  - destruct (col_block (length ws) (l :: r)) as [b rest] eqn:E. destruct (col_block_spec _ _ _ _ E) as (EL & Fb & Tr).
    assert (Nb : b <> []). { intros ->. cbn [app] in EL. rewrite <- EL in Tr. congruence. }
    assert (LA : lacks (length ws) above). { destruct HA as [HA|HA]; [exact HA|]. cbn [lacks] in HA. congruence. }
    rewrite EL, aligned_lines_app. rewrite EL in HW, HL, Hf. rewrite app_length in Hf. apply Forall_app in HL as (HL1 & HL2).
    assert (Lr : lacks (length ws) (rest ++ below)). { destruct rest as [|x rest]; [exact HB|exact Tr]. }
    f_equal.
    + destruct b as [|x b]; [congruence|]. 
      assert (Lx : length ws < MX). { inversion HL1; subst. lia. }
      apply IH.
      * rewrite app_length. cbn [length] in *. lia.
      * apply Forall_forall. intros y Hy. rewrite Forall_forall in HL1, Fb. specialize (HL1 y Hy). specialize (Fb y Hy). unfold in_column in Fb.
        apply Nat.ltb_lt in Fb. rewrite app_length. cbn [length]. lia.
      * left. rewrite app_length, Nat.add_1_r. destruct above as [|y above]; [exact I|]. apply in_column_down. exact LA.
      * rewrite app_length, Nat.add_1_r. destruct (rest ++ below) as [|y ys]; [exact I|]. apply in_column_down. exact Lr.
      * intros a y b2 EB j Hj. rewrite app_length, Nat.add_1_r in Hj. destruct (Nat.eq_dec j (length ws)) as [->|Nj].
        -- rewrite app_nth2, Nat.sub_diag by lia. cbn [nth]. rewrite block_width_widest, EB. unfold column_width.
           rewrite EB in Fb. apply Forall_app in Fb as (Fa & Fy). inversion Fy; subst.
           rewrite (neighbours_all _ (rev a) above) by (try apply Forall_rev; assumption). rewrite (neighbours_all _ b2 (rest ++ below)) by assumption.
           rewrite widest_rev, widest_app, widest_cons. destruct (a ++ y :: b2) eqn:Q; [destruct a; discriminate|]. lia.
        -- rewrite app_nth1 by lia. rewrite (HW a y (b2 ++ rest)) by (try lia; rewrite EB, <- app_assoc; reflexivity). rewrite <- app_assoc. reflexivity.
    + destruct b as [|x b]; [congruence|]. apply IH; try assumption.
      * cbn [length] in Hf. lia.
      * right. exact Tr.
      * intros a y b2 EB j Hj. rewrite (HW ((x :: b) ++ a) y b2) by (try lia; rewrite EB, <- app_assoc; reflexivity).
        rewrite rev_app_distr, <- app_assoc. reflexivity.
  - cbn [aligned_lines]. inversion HL; subst. f_equal.
    + apply write_line_aligned.
      * unfold in_column in H. apply Nat.ltb_ge in H. lia.
      * intros j Hj. apply (HW [] l r); [reflexivity|exact Hj].
    + apply IH; try assumption.
      * cbn [length] in Hf. lia.
      * left. exact H.
      * intros a y b EB j Hj. rewrite (HW (l :: a) y b) by (try lia; rewrite EB; reflexivity). cbn [rev]. rewrite <- app_assoc. reflexivity.
Qed.

Lemma split_at_nonempty c s : split_at c s <> [].
Proof. destruct s as [|x s]; cbn; [discriminate|]. destruct (x =? c)%Z; [discriminate|]. destruct (split_at c s); discriminate. Qed.
Lemma lines_of_nonempty s : Forall (fun l => 1 <= length l) (lines_of s).
Proof. unfold lines_of. apply Forall_forall. intros l Hl. apply in_map_iff in Hl as (t & <- & _). pose proof (split_at_nonempty r_tab t). destruct (split_at r_tab t); [congruence|cbn; lia]. Qed.
Lemma max_cells_le l lines : In l lines -> length l <= max_cells lines.
Proof. unfold max_cells. induction lines as [|x ls IH]; cbn [In fold_right]; intros []; [subst; lia|]. specialize (IH H). lia. Qed.

Theorem tabwrite_spec right s : tabwrite right s = Join (aligned_lines right [] (lines_of s) []) [r_newline].
Proof.
  unfold tabwrite. f_equal. apply (format_tabs_spec right (max_cells (lines_of s))); cbn [length].
  - lia.
  - apply Forall_forall. intros l Hl. pose proof (lines_of_nonempty s) as F. rewrite Forall_forall in F. specialize (F l Hl). pose proof (max_cells_le l _ Hl). lia.
  - left. exact I.
  - exact I.
  - intros a l b _ j Hj. lia.
Qed.

(* ---------- the lines of a text of cells ---------- *)
Lemma split_at_app c t s : ~ In c t -> split_at c (t ++ c :: s) = t :: split_at c s.
Proof.
  induction t as [|x t IH]; intros N; cbn [app split_at]; [rewrite Z.eqb_refl; reflexivity|].
  replace (x =? c)%Z with false by (symmetry; apply Z.eqb_neq; intros ->; apply N; left; reflexivity).
  rewrite IH by (intros Q; apply N; right; exact Q). reflexivity.
Qed.
Lemma split_at_none c t : ~ In c t -> split_at c t = [t].
Proof.
  induction t as [|x t IH]; intros N; cbn [split_at]; [reflexivity|].
  replace (x =? c)%Z with false by (symmetry; apply Z.eqb_neq; intros ->; apply N; left; reflexivity).
  rewrite IH by (intros Q; apply N; right; exact Q). reflexivity.
Qed.
Lemma split_at_Join c ts : ts <> [] -> Forall (fun t => ~ In c t) ts -> split_at c (Join ts [c]) = ts.
Proof.
  induction ts as [|t ts IH]; intros N F; [congruence|]. inversion F; subst. destruct ts as [|t2 ts]; cbn [Join]; [apply split_at_none; assumption|].
  cbn [app]. rewrite split_at_app by assumption. f_equal. apply IH; [discriminate|assumption].
Qed.
Lemma Join_plain_newline cells : Forall plain cells -> ~ In r_newline (Join cells [r_tab]).
Proof.
  induction 1 as [|t ts (H1 & H2) _ IH]; [intros []|]. destruct ts as [|t2 ts]; cbn [Join]; [exact H2|].
  rewrite !in_app_iff. intros [Q|[[Q|[]]|Q]]; [exact (H2 Q)|discriminate Q|exact (IH Q)].
Qed.
Lemma lines_of_rows rows : Forall (fun r => r <> [] /\ Forall plain r) rows ->
  lines_of (concat (map (fun r => Join r [r_tab] ++ [r_newline]) rows)) = rows ++ [[([] : text)]].
Proof.
  unfold lines_of. induction 1 as [|r rows (N & P) _ IH]; [reflexivity|]. cbn [map concat]. rewrite <- app_assoc. cbn [app].
  rewrite split_at_app by (apply Join_plain_newline; exact P). cbn [map]. rewrite IH. f_equal.
  apply split_at_Join; [exact N|]. eapply Forall_impl; [|exact P]. intros t (H & _). exact H.
Qed.

(* rows with the same number of cells *)
Lemma aligned_ext right w w' l : (forall j, j < length l - 1 -> w j = w' j) -> aligned right w l = aligned right w' l.
Proof. intros H. unfold aligned. f_equal. f_equal. apply map_ext_in. intros j Hj. apply in_seq in Hj. rewrite H by lia. reflexivity. Qed.
Lemma aligned_rect right n rows : Forall (fun r => length r = S n) rows ->
  aligned_lines right [] (rows ++ [[([] : text)]]) [] = map (fun r => aligned right (table_width rows) r) rows ++ [([] : text)].
Proof.
  intros F.
  assert (G : forall rest above, Forall (fun r => length r = S n) above -> Forall (fun r => length r = S n) rest ->
    aligned_lines right above (rest ++ [[([] : text)]]) [] = map (fun r => aligned right (fun j => S (Nat.max (widest j above) (widest j rest))) r) rest ++ [([] : text)]).
  { induction rest as [|r rest IH]; intros above Fa Fr; [reflexivity|]. inversion Fr as [|? ? Hr Fr']; subst. cbn [app aligned_lines map]. f_equal.
    - apply aligned_ext. intros j Hj. unfold column_width. rewrite app_nil_r.
      assert (C : forall ls, Forall (fun r => length r = S n) ls -> Forall (fun l => in_column j l = true) ls).
      { intros ls H. eapply Forall_impl; [|exact H]. cbv beta. intros l Hl. unfold in_column. apply Nat.ltb_lt. unfold text in *. lia. }
      rewrite (neighbours_all j rest [[([] : text)]]) by (try apply C; try assumption; reflexivity).
      rewrite <- (app_nil_r above) at 1. rewrite (neighbours_all j above []) by (try apply C; try assumption; exact I). rewrite widest_cons. lia.
    - rewrite IH by (try constructor; assumption). f_equal. apply map_ext. intros x. apply aligned_ext. intros j _. rewrite !widest_cons. lia. }
  etransitivity; [exact (G rows [] (Forall_nil _) F)|]. reflexivity.
Qed.
Lemma Join_snoc_empty (ts : list text) : ts <> [] -> Join (ts ++ [([] : text)]) [r_newline] = Join ts [r_newline] ++ [r_newline].
Proof.
  induction ts as [|t ts IH]; intros N; [congruence|]. destruct ts as [|t2 ts]; [reflexivity|].
  change ((t :: t2 :: ts) ++ [([] : text)]) with (t :: ((t2 :: ts) ++ [([] : text)])).
  change (Join (t :: (t2 :: ts) ++ [[]]) [r_newline]) with (t ++ [r_newline] ++ Join ((t2 :: ts) ++ [([] : text)]) [r_newline]).
  rewrite IH by discriminate. change (Join (t :: t2 :: ts) [r_newline]) with (t ++ [r_newline] ++ Join (t2 :: ts) [r_newline]). rewrite <- !app_assoc. reflexivity.
Qed.
Lemma tabwrite_rect right n rows : rows <> [] -> Forall (fun r => length r = S n /\ Forall plain r) rows ->
  tabwrite right (concat (map (fun r => Join r [r_tab] ++ [r_newline]) rows)) =
  Join (map (aligned right (table_width rows)) rows) [r_newline] ++ [r_newline].
Proof.
  intros N F. rewrite tabwrite_spec, lines_of_rows.
  - rewrite (aligned_rect right n) by (eapply Forall_impl; [|exact F]; intros r (H & _); exact H).
    apply Join_snoc_empty. destruct rows; [congruence|discriminate].
  - eapply Forall_impl; [|exact F]. intros r (H & P). split; [intros ->; discriminate|exact P].
Qed.
Lemma strip_newline_app : forall s, strip_newline (s ++ [r_newline]) = s.
Proof. intros s. unfold strip_newline. rewrite rev_app_distr. cbn [rev app]. change (r_newline =? r_newline)%Z with true. cbn iota. apply rev_involutive. Qed.
