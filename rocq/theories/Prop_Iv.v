(* Prop_Iv.v -- the stream processor iv: C164. *)
From Coq Require Import List Bool Arith Lia ZArith.
From Verif Require Import Base M_Array S_Array M_Scan S_Scan M_Format S_Format Prop_Format M_Chan S_Chan P_Chan P_Chan2 P_Chan5 P_Chan6 Prop_Chan Prop_ChanText M_Iv.
Import ListNotations.
Open Scope list_scope.
Open Scope Z_scope.

(* ---------- lines ---------- *)
Definition short (l : text) : Prop := bytes l < 65536.
Definition one_line (l : text) : Prop := ~ In 10 l /\ ~ In 13 l.
(* every line followed by a newline *)
Definition ended (ls : list text) : text := concat (map (fun l => l ++ [10]) ls).

Lemma dropCR_id : forall l, ~ In 13 l -> dropCR l = l.
Proof.
  intros l N. unfold dropCR. destruct (rev l) as [|r l'] eqn:E; [reflexivity|]. assert (I : In r l) by (apply in_rev; rewrite E; left; reflexivity).
  assert (R : r <> 13) by (intros ->; contradiction). destruct r; try reflexivity. repeat (destruct p; try reflexivity). congruence.
Qed.
Lemma raw_cons : forall l t, ~ In 10 l -> raw_lines (l ++ 10 :: t) = l :: raw_lines t.
Proof.
  induction l as [|r l IH]; intros t N; [reflexivity|]. cbn [app raw_lines]. destruct (Z.eqb_spec r r_newline) as [->|_]; [exfalso; apply N; left; reflexivity|].
  rewrite IH by (intros I; apply N; right; exact I). reflexivity.
Qed.
Lemma raw_ended : forall ls t, Forall (fun l => ~ In 10 l) ls -> raw_lines (ended ls ++ t) = ls ++ raw_lines t.
Proof.
  induction ls as [|l ls IH]; intros t F; [reflexivity|]. inversion F; subst. unfold ended in *. cbn [map concat]. rewrite <- !app_assoc. cbn [app]. rewrite raw_cons by assumption.
  rewrite IH by assumption. reflexivity.
Qed.
Lemma raw_last : forall l, ~ In 10 l -> l <> [] -> raw_lines l = [l].
Proof.
  induction l as [|r l IH]; intros N NE; [congruence|]. cbn [raw_lines]. destruct (Z.eqb_spec r r_newline) as [->|_]; [exfalso; apply N; left; reflexivity|].
  destruct l as [|r' l]; [reflexivity|]. rewrite IH; [reflexivity|intros I; apply N; right; exact I|discriminate].
Qed.
Lemma scan_short : forall ls rest, Forall one_line ls -> Forall short ls -> scan_lines (ls ++ rest) = ls ++ scan_lines rest.
Proof.
  induction ls as [|l ls IH]; intros rest F S; [reflexivity|]. inversion F as [|? ? [N C] F']; inversion S as [|? ? SH S']; subst. cbn [app scan_lines].
  replace (max_line <=? bytes l) with false by (symmetry; apply Z.leb_gt; exact SH). rewrite dropCR_id, IH by assumption. reflexivity.
Qed.
(* All lines are delivered, whether the last one ends with a newline or not. *)
Theorem C164_lines_partial : forall ls l, Forall one_line ls -> Forall short ls -> one_line l -> short l ->
  LineReader (ended ls) = ls /\ (l <> [] -> LineReader (ended ls ++ l) = ls ++ [l]).
Proof.
  intros ls l F S F1 S1. assert (N : Forall (fun l => ~ In 10 l) ls) by (eapply Forall_impl; [|exact F]; intros a H; apply H). unfold LineReader. split.
  - rewrite <- (app_nil_r (ended ls)), raw_ended by exact N. cbn [raw_lines]. rewrite scan_short by assumption. cbn. apply app_nil_r.
  - intros NE. rewrite raw_ended, raw_last by (try apply F1; assumption). rewrite scan_short by assumption. cbn [scan_lines]. replace (max_line <=? bytes l) with false by (symmetry; apply Z.leb_gt; exact S1). rewrite dropCR_id by apply F1. reflexivity.
Qed.
(* A line of 64 kB ends the stream: it and everything after it are lost, without an error. *)
Theorem C164_long_line_refuted : forall ls l rest, Forall one_line ls -> Forall short ls -> ~ In 10 l -> 65536 <= bytes l ->
  LineReader (ended (ls ++ l :: rest)) = ls.
Proof.
  intros ls l rest F S N B. assert (N' : Forall (fun l => ~ In 10 l) ls) by (eapply Forall_impl; [|exact F]; intros a H; apply H).
  assert (E : ended (ls ++ l :: rest) = ended ls ++ ended (l :: rest)) by (unfold ended; rewrite map_app, concat_app; reflexivity).
  unfold LineReader. rewrite E, raw_ended by exact N'. unfold ended. cbn [map concat]. rewrite <- app_assoc. cbn [app]. rewrite raw_cons by exact N.
  rewrite scan_short by assumption. cbn [scan_lines]. replace (max_line <=? bytes l) with true by (symmetry; apply Z.leb_le; exact B). apply app_nil_r.
Qed.

(* ---------- cells ---------- *)
Section Cells.
  Context {A : Type} (C : M_Scan.scanner) (num : text -> option A) (str : text -> A) (oneV emptyV : item A) (isEmpty : item A -> bool).
  Local Notation V := (item A).
  Local Notation step := (step Failed emptyV oneV isEmpty ravel_item pack_item).
  Local Notation run := (run Failed emptyV oneV isEmpty ravel_item pack_item).
  Local Notation crashes := (crashes Failed emptyV oneV isEmpty ravel_item pack_item).
  Local Notation system := (system oneV).
  Local Notation finished := (finished step).
  Local Notation read k t := (read_cells C num str (S (length t%list)) k t%list).
  (* A scanner for rank k: when all lines have been read, it has found the cells that are read
     from the lines joined by newlines (C73); meanwhile it has found some of them, how many
     depends on when it asks for the next line. *)
  Definition cell_scanner (k : Z) (scan : list V -> bool -> list V) : Prop :=
    steady scan /\ forall ls cs, hd_error ls <> Some [] -> read k (joined 10 ls) = map Some cs -> scan (map Line ls) true = map Value cs.
  (* the plan of  r k , with ls the lines of the standard input *)
  Definition r_plan (scan : list V -> bool -> list V) (ls : list text) : plan V := Cells scan (File (map Line ls)).

  Lemma show_tidy : tidy 1%nat [@Show V 1%nat].
  Proof. split; [constructor; [reflexivity|constructor]|cbn; auto]. Qed.
  Lemma r_fits : forall k scan ls, cell_scanner k scan -> fits (r_plan scan ls).
  Proof. intros k scan ls [ST _]. cbn. auto. Qed.
  (* r k  shows all cells of rank k of the input, in order *)
  Theorem C164_cells : forall k scan ls cs t s, cell_scanner k scan -> hd_error ls <> Some [] -> read k (joined 10 ls) = map Some cs ->
    run (system (r_plan scan ls) [Show 1%nat]) t s -> finished s -> returned s (map Ok (map Value cs)) /\ all_ended s.
  Proof.
    intros k scan ls cs t s CS HD R RN FI. pose proof (r_fits k scan ls CS) as FT. destruct CS as [ST SC].
    assert (TD : tidy 1%nat [@Show V 1%nat]) by exact show_tidy. split.
    - destruct (C91_results Failed emptyV oneV isEmpty ravel_item pack_item (r_plan scan ls) [Show 1%nat] t s TD FT (or_introl eq_refl) RN) as [X _]. specialize (X FI).
      cbn [results outputs r_plan] in X. rewrite app_nil_r, (SC ls cs HD R) in X. exact X.
    - eapply (C72_drained_ends_partial Failed emptyV oneV isEmpty ravel_item pack_item (r_plan scan ls)); [exact TD|exact FT|exact I|reflexivity| |exact RN|exact FI].
      exists (Show 1%nat). split; [left; reflexivity|exact I].
  Qed.
  (* f¨r k  shows f of every cell *)
  Theorem C164_each : forall k scan ls cs (f : func V) (g : @cell A -> V) t s, cell_scanner k scan -> hd_error ls <> Some [] -> read k (joined 10 ls) = map Some cs ->
    (forall c, f None (Value c) = Ok (g c)) -> no_panic f -> never_fails f ->
    run (system (Map f None false (r_plan scan ls)) [Show 1%nat]) t s -> finished s -> returned s (map Ok (map g cs)) /\ all_ended s.
  Proof.
    intros k scan ls cs f g t s CS HD R FG NP NF RN FI. pose proof (r_fits k scan ls CS) as FT. destruct CS as [ST SC].
    assert (TD : tidy 1%nat [@Show V 1%nat]) by exact show_tidy.
    assert (FT' : fits (Map f None false (r_plan scan ls))) by (split; [exact NP|right; split; [exact NF|exact FT]]). split.
    - destruct (C91_results Failed emptyV oneV isEmpty ravel_item pack_item _ [Show 1%nat] t s TD FT' (or_introl eq_refl) RN) as [X _]. specialize (X FI).
      cbn [results outputs r_plan] in X. rewrite app_nil_r, (SC ls cs HD R) in X.
      assert (E : through Failed isEmpty f false (Const None) (map Value cs) = map g cs); [|rewrite E in X; exact X].
      clear - FG. induction cs as [|c cs IH]; [reflexivity|]. cbn [map through lhead ltail]. rewrite FG. cbn. rewrite IH. reflexivity.
    - eapply (C72_drained_ends_partial Failed emptyV oneV isEmpty ravel_item pack_item (Map f None false (r_plan scan ls))); [exact TD|exact FT'|split; [exact NF|exact I]|reflexivity| |exact RN|exact FI].
      exists (Show 1%nat). split; [left; reflexivity|exact I].
  Qed.
  (* s shape  shows arrays of that shape, filled with the scalars of the input in order; scalars
     that do not fill an array are dropped *)
  Theorem C164_shape : forall scan ls xs shape t s, cell_scanner 0 scan -> hd_error ls <> Some [] -> read 0 (joined 10 ls) = map Some (map Atom xs) -> (0 < chunk_size shape)%nat ->
    run (system (Reshape shape (r_plan scan ls)) [Show 1%nat]) t s -> finished s ->
    returned s (map Ok (map (fun g => Value (Cell (mkArr (map Z.of_nat shape) g))) (groups (chunk_size shape) xs))) /\ all_ended s.
  Proof.
    intros scan ls xs shape t s CS HD R SZ RN FI. pose proof (r_fits 0 scan ls CS) as FT. destruct CS as [ST SC].
    assert (TD : tidy 1%nat [@Show V 1%nat]) by exact show_tidy.
    assert (FT' : fits (Reshape shape (r_plan scan ls))) by (split; [exact SZ|exact FT]). split.
    - destruct (C91_results Failed emptyV oneV isEmpty ravel_item pack_item _ [Show 1%nat] t s TD FT' (or_introl eq_refl) RN) as [X _]. specialize (X FI).
      cbn [results outputs r_plan] in X. rewrite app_nil_r, (SC ls _ HD R) in X.
      assert (E : map (pack_item shape) (groups (chunk_size shape) (concat (map ravel_item (map Value (map Atom xs))))) = map (fun g => @Value A (Cell (mkArr (map Z.of_nat shape) g))) (groups (chunk_size shape) xs)); [|rewrite E in X; exact X].
      assert (E1 : concat (map ravel_item (map Value (map (@Atom A) xs))) = map (fun x => Value (Atom x)) xs) by (clear; induction xs as [|x xs IH]; [reflexivity|]; cbn [map concat]; rewrite IH; reflexivity).
      rewrite E1. unfold groups. rewrite map_length, !map_map. apply map_ext. intros i. rewrite skipn_map, firstn_map. unfold pack_item.
      assert (E2 : forall l : list A, mapM atom_of (map (fun x => Value (Atom x)) l) = Ok l) by (clear; induction l as [|x l IH]; [reflexivity|]; cbn; rewrite IH; reflexivity).
      rewrite E2. reflexivity.
    - eapply (C72_drained_ends_partial Failed emptyV oneV isEmpty ravel_item pack_item (Reshape shape (r_plan scan ls))); [exact TD|exact FT'|exact I|reflexivity| |exact RN|exact FI].
      exists (Show 1%nat). split; [left; reflexivity|exact I].
  Qed.
  (* the same for cells of any rank: the elements of the cells, one after the other *)
  Definition scalars (c : @cell A) : list A := match c with Atom x => [x] | Cell a => elems a end.
  Theorem C164_shape_cells : forall k scan ls cs shape t s, cell_scanner k scan -> hd_error ls <> Some [] -> read k (joined 10 ls) = map Some cs -> (0 < chunk_size shape)%nat ->
    run (system (Reshape shape (r_plan scan ls)) [Show 1%nat]) t s -> finished s ->
    returned s (map Ok (map (fun g => Value (Cell (mkArr (map Z.of_nat shape) g))) (groups (chunk_size shape) (flat_map scalars cs)))) /\ all_ended s.
  Proof.
    intros k scan ls cs shape t s CS HD R SZ RN FI. pose proof (r_fits k scan ls CS) as FT. destruct CS as [ST SC].
    assert (TD : tidy 1%nat [@Show V 1%nat]) by exact show_tidy.
    assert (FT' : fits (Reshape shape (r_plan scan ls))) by (split; [exact SZ|exact FT]). split.
    - destruct (C91_results Failed emptyV oneV isEmpty ravel_item pack_item _ [Show 1%nat] t s TD FT' (or_introl eq_refl) RN) as [X _]. specialize (X FI).
      cbn [results outputs r_plan] in X. rewrite app_nil_r, (SC ls _ HD R) in X.
      assert (E : map (pack_item shape) (groups (chunk_size shape) (concat (map ravel_item (map Value cs)))) = map (fun g => @Value A (Cell (mkArr (map Z.of_nat shape) g))) (groups (chunk_size shape) (flat_map scalars cs))); [|rewrite E in X; exact X].
      assert (E1 : concat (map ravel_item (map Value cs)) = map (fun x => Value (Atom x)) (flat_map scalars cs)).
      { clear. induction cs as [|c cs IH]; [reflexivity|]. cbn [map concat flat_map]. rewrite IH, map_app. destruct c; reflexivity. }
      rewrite E1. unfold groups. rewrite map_length, !map_map. apply map_ext. intros i. rewrite skipn_map, firstn_map. unfold pack_item.
      assert (E2 : forall l : list A, mapM atom_of (map (fun x => Value (Atom x)) l) = Ok l) by (clear; induction l as [|x l IH]; [reflexivity|]; cbn; rewrite IH; reflexivity).
      rewrite E2. reflexivity.
    - eapply (C72_drained_ends_partial Failed emptyV oneV isEmpty ravel_item pack_item (Reshape shape (r_plan scan ls))); [exact TD|exact FT'|exact I|reflexivity| |exact RN|exact FI].
      exists (Show 1%nat). split; [left; reflexivity|exact I].
  Qed.
  (* at any time the values that have been shown are the first ones; nothing crashes, and there
     is no infinite execution *)
  Theorem C164_meanwhile : forall k scan ls cs t s, cell_scanner k scan -> hd_error ls <> Some [] -> read k (joined 10 ls) = map Some cs ->
    run (system (r_plan scan ls) [Show 1%nat]) t s -> ~ crashes s /\ exists log rest, got_so_far s log /\ log ++ rest = map Ok (map Value cs).
  Proof.
    intros k scan ls cs t s CS HD R RN. pose proof (r_fits k scan ls CS) as FT. assert (TD : tidy 1%nat [@Show V 1%nat]) by exact show_tidy. split.
    - exact (C91_no_crash Failed emptyV oneV isEmpty ravel_item pack_item (r_plan scan ls) [Show 1%nat] t s TD FT (or_introl eq_refl) RN).
    - destruct (C91_results Failed emptyV oneV isEmpty ravel_item pack_item (r_plan scan ls) [Show 1%nat] t s TD FT (or_introl eq_refl) RN) as [_ (log & rest & G & E)].
      exists log, rest. split; [exact G|]. rewrite E. cbn [results outputs r_plan]. rewrite app_nil_r, (proj2 CS ls cs HD R). reflexivity.
  Qed.
  Theorem C164_terminates : forall k scan ls (q : nat -> sys V), cell_scanner k scan -> q 0%nat = system (r_plan scan ls) [Show 1%nat] -> ~ forall n, exists lab, step (q n) lab (q (S n)).
  Proof.
    intros k scan ls q CS E. apply (C91_terminates Failed emptyV oneV isEmpty ravel_item pack_item (r_plan scan ls) [Show 1%nat]); [exact show_tidy|eapply r_fits; exact CS|left; reflexivity|exact E].
  Qed.
  (* The text of an array that iv or apl prints is read back in cells. *)
  Theorem C164_table : forall (show : A -> text) pad out cs xs scan ls t s, cell_scanner (zlen cs) scan -> hd_error ls <> Some [] ->
    joined 10 ls = tableArray show pad (mkArr (out ++ cs) xs) -> nonempty (mkArr (out ++ cs) xs) -> readable_elems C num str show (mkArr (out ++ cs) xs) -> cs <> [] ->
    (zlen cs <= 2 \/ 2 <= nth 0 cs 0 \/ 2 <= nth 1 cs 0) ->
    run (system (r_plan scan ls) [Show 1%nat]) t s -> finished s ->
    returned s (map Ok (map (fun a => Value (Cell a)) (cells_of cs (mkArr (out ++ cs) xs)))) /\ all_ended s.
  Proof.
    intros show pad out cs xs scan ls t s CS HD J NE RE NC SH RN FI. pose proof (C113_table C num str show pad out cs xs NE RE NC SH) as R. rewrite <- J in R.
    destruct (C164_cells (zlen cs) scan ls (map Cell (cells_of cs (mkArr (out ++ cs) xs))) t s CS HD) as [X Y]; [rewrite R, map_map; reflexivity|exact RN|exact FI|].
    split; [|exact Y]. rewrite (map_map Cell Value) in X. exact X.
  Qed.

  (* such scanners exist: one that reads everything before it looks for cells *)
  Definition patient (k : Z) (got : list V) (eof : bool) : list V :=
    if eof then map (fun o => match o with Some c => Value c | None => Failed end) (read k (joined 10 (flat_map (fun v => match v with Line l => [l] | _ => [] end) got))) else [].
  Lemma patient_scanner : forall k, cell_scanner k (patient k).
  Proof.
    intros k. split; [split; [reflexivity|]; split; [intros got v; exists []; reflexivity|intros got; exists (patient k got true); reflexivity]|].
    intros ls cs _ R. unfold patient. assert (E : flat_map (fun v : V => match v with Line l => [l] | _ => [] end) (map Line ls) = ls) by (clear; induction ls as [|l ls IH]; [reflexivity|]; cbn; rewrite IH; reflexivity).
    rewrite E, R, map_map. reflexivity.
  Qed.

  (* Closing the channel of r k before the first line has been read ends the whole process: the
     control channel of the input is closed twice. *)
  Lemma run_start : forall s l s1 t s2, step s l s1 -> run s1 t s2 -> run s (l :: t) s2.
  Proof.
    intros s l s1 t s2 H RN. induction RN as [s1|s1 t s2 l' s3 RN IH ST]; [exact (run_snoc _ _ _ _ _ _ s [] s l s1 (run_nil _ _ _ _ _ _ s) H)|].
    exact (run_snoc _ _ _ _ _ _ s (l :: t) s2 l' s3 (IH H) ST).
  Qed.
  Theorem C164_close_refuted : forall scan ls, exists t s, run (system (r_plan scan ls) [CloseC 1%nat]) t s /\ crashes s.
  Proof.
    intros scan ls. do 2 eexists. split.
    - eapply run_start; [eapply (st_close _ _ _ _ _ _ _ _ 0%nat); [reflexivity|reflexivity|intros []]|].
      eapply run_start; [eapply (st_eof _ _ _ _ _ _ _ _ 1%nat); [reflexivity|reflexivity|left; reflexivity|cbn; auto]|].
      eapply run_start; [eapply (st_close _ _ _ _ _ _ _ _ 1%nat); [reflexivity|reflexivity|intros [X|[]]; discriminate]|].
      eapply run_start; [eapply (st_eof _ _ _ _ _ _ _ _ 1%nat); [reflexivity|reflexivity|left; reflexivity|cbn; auto]|]. apply run_nil.
    - eapply (cr_close _ _ _ _ _ _ _ _ 1%nat); [reflexivity|reflexivity|cbn; auto].
  Qed.
End Cells.

(* cmd/iv/testdata/colsum.iv and shape.iv *)
Definition colsum_lines : list text := [[49; 32; 50; 32; 51]; [52; 32; 53; 32; 54]; []; [55; 32; 56; 32; 57]; [49; 32; 50; 32; 51]].
Example C164_example :
  LineReader (joined 10 colsum_lines) = colsum_lines /\ hd_error colsum_lines <> Some [] /\
  (let t := joined 10 colsum_lines in
   read_cells exC exnum (@EString Empty_set) (S (length t)) 2 t = [Some (Cell (mkArr [2; 3] (ints [1; 2; 3; 4; 5; 6]))); Some (Cell (mkArr [2; 3] (ints [7; 8; 9; 1; 2; 3])))] /\
   read_cells exC exnum (@EString Empty_set) (S (length t)) 0 t = map Some (map Atom (ints [1; 2; 3; 4; 5; 6; 7; 8; 9; 1; 2; 3])) /\
   groups 4%nat (ints [1; 2; 3; 4; 5; 6; 7; 8; 9; 1; 2; 3]) = [ints [1; 2; 3; 4]; ints [5; 6; 7; 8]; ints [9; 1; 2; 3]]).
Proof. split; [reflexivity|]. split; [discriminate|]. split; [vm_compute; reflexivity|]. split; vm_compute; reflexivity. Qed.
Print Assumptions C164_lines_partial.
Print Assumptions C164_long_line_refuted.
Print Assumptions C164_cells.
Print Assumptions C164_each.
Print Assumptions C164_shape.
Print Assumptions C164_meanwhile.
Print Assumptions C164_terminates.
Print Assumptions C164_table.
Print Assumptions C164_close_refuted.
Print Assumptions C164_shape_cells.
