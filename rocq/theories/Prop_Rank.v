(* Prop_Rank.v -- C134: the rank operator: two arguments, negative ranks, results of any shapes. *)
From Verif Require Import Base M_Array S_Array P_Array M_Structural S_Structural P_Structural S_Operators M_Operators P_Operators Eff P_Comma M_Rank S_Rank P_Rank.

(* the right operand: the rank of the cells for one argument, of the left and of the right argument *)
Inductive ranks : list Z -> Z -> Z -> Z -> Prop :=
| ranks1 k : ranks [k] k k k
| ranks2 l r : ranks [l; r] r l r
| ranks3 p l r : ranks [p; l; r] p l r.
(* negative ranks are counted from the rank of the array *)
Definition cell_rank {A} (a : arr A) (k k' : Z) : Prop := k' = (if k <? 0 then k + zlen (dims a) else k) /\ 0 <= k' <= zlen (dims a).
(* all cells of rank k, in order *)
Definition is_cells {A} (a : arr A) (k : Z) (cells : list (val A)) : Prop :=
  map Some cells = map (cell_val a k) (zseq (size (frame_dims a k))).
(* the cells are elements, or (almost) not more than the last axis of the frame is long: the code
   refuses others (C44_rank_refuted) *)
Definition countable {A} (a : arr A) (k : Z) : Prop :=
  k = 0 \/ exists d, znth (dims a) (zlen (dims a) - 1 - k) = Some d /\ size (frame_dims a k) <= d + 1.
(* the result of applying a function to some cells, with the shape of the frame: all results are
   brought to the longest shape *)
Definition joins {St A} (zero : A) (frame : list Z) (app : eff St (list (val A))) (run : eff St (val A)) (s : St) : Prop :=
  match app s with
  | (Ok results, s') => Forall proper_result results ->
      exists cs ls, common results cs /\ Forall2 (conformed zero cs) results ls /\ run s = (Ok (Arr (mkArr (frame ++ cs) (concat ls))), s')
  | (Err, s') => run s = (Err, s')
  | (Panic, s') => run s = (Panic, s')
  end.

Lemma ranks_pqr ai p q r : ranks ai p q r -> rank_pqr ai = Some (p, q, r).
Proof. intros []; reflexivity. Qed.
Lemma frame_ok {A} (a : arr A) k : 0 <= k <= zlen (dims a) -> rank_frame a k = Ok (frame_dims a k).
Proof.
  intros H. unfold rank_frame. replace ((zlen (dims a) - k <? 0) || (zlen (dims a) <? zlen (dims a) - k)) with false by lia.
  unfold frame_dims. do 2 f_equal. unfold zlen. lia.
Qed.
Lemma frame_nonneg {A} (a : arr A) k : wf a -> Forall (fun d => 0 <= d) (frame_dims a k).
Proof. intros (_ & H & _). rewrite <- (frame_cell_app a k) in H. apply Forall_app in H. apply H. Qed.
Lemma frame_ne {A} (a : arr A) k : 0 <= k < zlen (dims a) -> frame_dims a k <> [].
Proof. intros H E. pose proof (zlen_frame a k ltac:(lia)) as L. rewrite E in L. cbn in L. lia. Qed.
Lemma frame_full {A} (a : arr A) : frame_dims a (zlen (dims a)) = [].
Proof. unfold frame_dims. replace (length (dims a) - Z.to_nat (zlen (dims a)))%nat with 0%nat by (unfold zlen; lia). reflexivity. Qed.
Lemma cells_subcell {A} (a : arr A) k cells i c : wf a -> 0 <= k < zlen (dims a) -> countable a k -> is_cells a k cells -> znth cells i = Some c -> subcell a k i = Ok c.
Proof.
  intros W Hk C I E. pose proof (znth_some_range _ _ _ E) as Hi. unfold is_cells in I.
  assert (L : zlen cells = size (frame_dims a k)). { apply (f_equal (@zlen _)) in I. rewrite !zlen_map, zlen_zseq in I. pose proof (size_nonneg _ (frame_nonneg a k W)). lia. }
  assert (HC : cell_val a k i = Some c). { apply (f_equal (fun l => znth l i)) in I. rewrite !znth_map, E, znth_zseq in I by lia. cbn in I. congruence. }
  unfold cell_val in HC. destruct (k =? 0) eqn:E0.
  - unfold subcell. rewrite E0. unfold At, zat. destruct (znth (elems a) i); [|discriminate]. cbn in *. congruence.
  - destruct C as [->|(d & Hd & Hr)]; [discriminate|]. rewrite (subcell_ok a k i d W ltac:(lia) ltac:(lia) Hd ltac:(lia)). injection HC as <-. reflexivity.
Qed.
Lemma cells_zlen {A} (a : arr A) k cells : wf a -> is_cells a k cells -> zlen cells = size (frame_dims a k).
Proof. intros W I. apply (f_equal (@zlen _)) in I. rewrite !zlen_map, zlen_zseq in I. pose proof (size_nonneg _ (frame_nonneg a k W)). lia. Qed.
Lemma joins_assemble {St A} (zero : A) frame (app : eff St (list (val A))) (s : St) : frame <> [] -> Forall (fun d => 0 <= d) frame ->
  (forall rs s', app s = (Ok rs, s') -> zlen rs = size frame) ->
  joins zero frame app (let! rs := app in elift (assemble zero frame rs)) s.
Proof.
  intros NE NN L. unfold joins. destruct (app s) as [[rs| |] s'] eqn:E; try (unfold ebind; rewrite E; reflexivity).
  intros P. destruct (assemble_ok zero frame rs NE NN (L rs s' eq_refl) P) as (cs & ls & C & F & EA). exists cs, ls. split; [exact C|]. split; [exact F|].
  unfold ebind, elift. rewrite E, EA. reflexivity.
Qed.
Lemma joins_ext {St A} (zero : A) frame (app : eff St (list (val A))) (r1 r2 : eff St (val A)) (s : St) : r1 s = r2 s -> joins zero frame app r2 s -> joins zero frame app r1 s.
Proof. intros E. unfold joins. rewrite E. exact (fun H => H). Qed.

Section Props.
  Context {St A : Type} (zero : A).
  (* one argument *)
  Theorem C134_monadic (f : val A -> eff St (val A)) ai p q r a k cells s : wf a -> ranks ai p q r -> cell_rank a p k -> k < zlen (dims a) -> r <= zlen (dims a) ->
    countable a k -> is_cells a k cells -> joins zero (frame_dims a k) (mapE f cells) (rank1 zero f ai (Arr a)) s.
  Proof.
    intros W RK [Ek Hk] Hk2 Hr C I. pose proof (frame_ne a k ltac:(lia)) as NE.
    apply (joins_ext _ _ _ _ (let! rs := mapE f cells in elift (assemble zero (frame_dims a k) rs))).
    - unfold rank1. rewrite (ranks_pqr _ _ _ _ RK). cbn [asArr]. cbv zeta. rewrite <- Ek. replace ((k <? 0) || (zlen (dims a) <? r)) with false by lia.
      unfold ebind at 1, elift at 1. rewrite frame_ok by lia. rewrite Prod_size by exact NE.
      assert (X : forall t, mapE (fun i => let! c := elift (subcell a k i) in f c) (zseq (size (frame_dims a k))) t = mapE f cells t).
      { apply mapE_Forall2_eq. apply Forall2_from_znth; [rewrite zlen_zseq, (cells_zlen a k cells W I); pose proof (size_nonneg _ (frame_nonneg a k W)); lia|].
        intros i x c Hx Hc t. pose proof (znth_some_range _ _ _ Hx) as Hi. rewrite zlen_zseq in Hi. rewrite znth_zseq in Hx by lia. injection Hx as <-.
        unfold ebind, elift. rewrite (cells_subcell a k cells i c W ltac:(lia) C I Hc). reflexivity. }
      apply ebind_ext; [apply X|]. intros rs t. unfold assemble. cbv zeta. unfold ebind, elift, eret, efail, epanic.
      destruct (mapM (conform zero (common_shape rs)) rs); [|reflexivity..]. cbn [obind]. destruct (Prod (frame_dims a k ++ common_shape rs) <? 0); [reflexivity|].
      destruct (common_shape rs); [destruct (negb _); reflexivity|]. destruct (mapM _ _); reflexivity.
    - apply joins_assemble; [exact NE|apply frame_nonneg; exact W|]. intros rs s' E. rewrite (mapE_zlen _ _ _ _ _ E). apply cells_zlen; assumption.
  Qed.

  Context (f : val A -> val A -> eff St (val A)).
  Lemma rank2_unfold ai p q r (L R : arr A) k l : wf L -> wf R -> ranks ai p q r -> cell_rank L q k -> cell_rank R r l ->
    forall s, rank2 zero f ai (Arr L) (Arr R) s =
      (let ml := Prod (frame_dims L k) in let mr := Prod (frame_dims R l) in
       if negb (ml =? mr) && (0 <? ml) && (0 <? mr) then efail else
       let! results := mapE (fun i => let! subl := if ml =? 0 then eret (Arr L) else elift (subcell L k i) in
                                      let! subr := if mr =? 0 then eret (Arr R) else elift (subcell R l i) in f subl subr) (zseq (if ml <? mr then mr else ml)) in
       elift (assemble zero (if mr =? 0 then frame_dims L k else frame_dims R l) results)) s.
  Proof.
    intros WL WR RK [Ek Hk] [El Hl] s. unfold rank2. rewrite (ranks_pqr _ _ _ _ RK). cbn [asArr]. cbv zeta. rewrite <- Ek, <- El.
    replace ((k <? 0) || (zlen (dims L) <? k)) with false by lia. replace ((l <? 0) || (zlen (dims R) <? l)) with false by lia.
    unfold ebind at 1, elift at 1. rewrite frame_ok by lia. unfold ebind at 1, elift at 1. rewrite frame_ok by lia. reflexivity.
  Qed.
  Lemma Prod_pos {B} (a : arr B) k : k < zlen (dims a) -> 0 <= k -> Prod (frame_dims a k) = size (frame_dims a k).
  Proof. intros. apply Prod_size, frame_ne. lia. Qed.

  (* as many cells on both sides: the function is called with the pairs, in order *)
  Theorem C134_pairs ai p q r (L R : arr A) k l cl cr s : wf L -> wf R -> ranks ai p q r -> cell_rank L q k -> cell_rank R r l ->
    k < zlen (dims L) -> l < zlen (dims R) -> countable L k -> countable R l -> is_cells L k cl -> is_cells R l cr -> zlen cl = zlen cr -> 0 < zlen cr ->
    joins zero (frame_dims R l) (mapE (fun c => f (fst c) (snd c)) (combine cl cr)) (rank2 zero f ai (Arr L) (Arr R)) s.
  Proof.
    intros WL WR RK CL CR Hk Hl NL NR IL IR EQ P0. pose proof (cells_zlen _ _ _ WL IL) as ZL. pose proof (cells_zlen _ _ _ WR IR) as ZR.
    destruct CL as [Ek Bk]; destruct CR as [El Bl]. pose proof (frame_ne R l ltac:(lia)) as NE.
    apply (joins_ext _ _ _ _ (let! rs := mapE (fun c => f (fst c) (snd c)) (combine cl cr) in elift (assemble zero (frame_dims R l) rs))).
    - rewrite (rank2_unfold ai p q r L R k l WL WR RK) by (split; assumption). cbv zeta. rewrite !Prod_pos by lia.
      replace (negb (size (frame_dims L k) =? size (frame_dims R l)) && (0 <? size (frame_dims L k)) && (0 <? size (frame_dims R l))) with false by lia.
      replace (size (frame_dims L k) <? size (frame_dims R l)) with false by lia. replace (size (frame_dims L k) =? 0) with false by lia. replace (size (frame_dims R l) =? 0) with false by lia.
      apply ebind_ext; [|reflexivity]. apply mapE_Forall2_eq.
      assert (LC : zlen (combine cl cr) = zlen cr) by (unfold zlen in *; rewrite combine_length; lia).
      apply Forall2_from_znth; [rewrite zlen_zseq; lia|].
      intros i x c Hx Hc t. pose proof (znth_some_range _ _ _ Hx) as Hi. rewrite zlen_zseq in Hi. rewrite znth_zseq in Hx by lia. injection Hx as <-.
      destruct (znth_in_range cl i) as (c1 & E1); [lia|]. destruct (znth_in_range cr i) as (c2 & E2); [lia|].
      assert (c = (c1, c2)) as ->.
      { rewrite (P_Transpose.znth_combine cl cr i c1 c2 E1 E2) in Hc. congruence. }
      unfold ebind, elift. rewrite (cells_subcell L k cl i c1 WL ltac:(lia) NL IL E1), (cells_subcell R l cr i c2 WR ltac:(lia) NR IR E2). reflexivity.
    - apply joins_assemble; [exact NE|apply frame_nonneg; exact WR|]. intros rs s' E. rewrite (mapE_zlen _ _ _ _ _ E). unfold zlen in *. rewrite combine_length. lia.
  Qed.
  (* a cell of full rank is the whole argument, used with every cell of the other side *)
  Theorem C134_left_whole ai p q r (L R : arr A) l cr s : wf L -> wf R -> ranks ai p q r -> cell_rank L q (zlen (dims L)) -> cell_rank R r l ->
    l < zlen (dims R) -> countable R l -> is_cells R l cr -> 0 < zlen cr ->
    joins zero (frame_dims R l) (mapE (f (Arr L)) cr) (rank2 zero f ai (Arr L) (Arr R)) s.
  Proof.
    intros WL WR RK CL CR Hl NR IR P0. pose proof (cells_zlen _ _ _ WR IR) as ZR.
    destruct CR as [El Bl]. pose proof (frame_ne R l ltac:(lia)) as NE.
    apply (joins_ext _ _ _ _ (let! rs := mapE (f (Arr L)) cr in elift (assemble zero (frame_dims R l) rs))).
    - rewrite (rank2_unfold ai p q r L R _ l WL WR RK CL) by (split; assumption). cbv zeta. rewrite frame_full. change (Prod []) with 0. rewrite !Prod_pos by lia.
      replace (negb (0 =? size (frame_dims R l)) && (0 <? 0) && (0 <? size (frame_dims R l))) with false by lia.
      replace (0 <? size (frame_dims R l)) with true by lia. replace (size (frame_dims R l) =? 0) with false by lia. cbn [Z.eqb].
      apply ebind_ext; [|reflexivity]. apply mapE_Forall2_eq. apply Forall2_from_znth; [rewrite zlen_zseq; lia|].
      intros i x c Hx Hc t. pose proof (znth_some_range _ _ _ Hx) as Hi. rewrite zlen_zseq in Hi. rewrite znth_zseq in Hx by lia. injection Hx as <-.
      unfold ebind, elift, eret. rewrite (cells_subcell R l cr i c WR ltac:(lia) NR IR Hc). reflexivity.
    - apply joins_assemble; [exact NE|apply frame_nonneg; exact WR|]. intros rs s' E. rewrite (mapE_zlen _ _ _ _ _ E). exact ZR.
  Qed.
  Theorem C134_right_whole ai p q r (L R : arr A) k cl s : wf L -> wf R -> ranks ai p q r -> cell_rank L q k -> cell_rank R r (zlen (dims R)) ->
    k < zlen (dims L) -> countable L k -> is_cells L k cl -> 0 < zlen cl ->
    joins zero (frame_dims L k) (mapE (fun c => f c (Arr R)) cl) (rank2 zero f ai (Arr L) (Arr R)) s.
  Proof.
    intros WL WR RK CL CR Hk NL IL P0. pose proof (cells_zlen _ _ _ WL IL) as ZL.
    destruct CL as [Ek Bk]. pose proof (frame_ne L k ltac:(lia)) as NE.
    apply (joins_ext _ _ _ _ (let! rs := mapE (fun c => f c (Arr R)) cl in elift (assemble zero (frame_dims L k) rs))).
    - rewrite (rank2_unfold ai p q r L R k _ WL WR RK (Logic.conj Ek Bk) CR). cbv zeta. rewrite frame_full. change (Prod []) with 0. rewrite !Prod_pos by lia.
      replace (negb (size (frame_dims L k) =? 0) && (0 <? size (frame_dims L k)) && (0 <? 0)) with false by lia.
      replace (size (frame_dims L k) <? 0) with false by lia. replace (size (frame_dims L k) =? 0) with false by lia. cbn [Z.eqb].
      apply ebind_ext; [|reflexivity]. apply mapE_Forall2_eq. apply Forall2_from_znth; [rewrite zlen_zseq; lia|].
      intros i x c Hx Hc t. pose proof (znth_some_range _ _ _ Hx) as Hi. rewrite zlen_zseq in Hi. rewrite znth_zseq in Hx by lia. injection Hx as <-.
      unfold ebind, elift, eret. rewrite (cells_subcell L k cl i c WL ltac:(lia) NL IL Hc). reflexivity.
    - apply joins_assemble; [exact NE|apply frame_nonneg; exact WL|]. intros rs s' E. rewrite (mapE_zlen _ _ _ _ _ E). exact ZL.
  Qed.
  (* different numbers of cells are an error, before any call *)
  Theorem C134_lengths ai p q r (L R : arr A) k l s : wf L -> wf R -> ranks ai p q r -> cell_rank L q k -> cell_rank R r l -> k < zlen (dims L) -> l < zlen (dims R) ->
    0 < size (frame_dims L k) -> 0 < size (frame_dims R l) -> size (frame_dims L k) <> size (frame_dims R l) ->
    rank2 zero f ai (Arr L) (Arr R) s = (Err, s).
  Proof.
    intros WL WR RK CL CR Hk Hl P1 P2 NE. rewrite (rank2_unfold ai p q r L R k l WL WR RK CL CR). destruct CL, CR. cbv zeta. rewrite !Prod_pos by lia.
    replace (negb (size (frame_dims L k) =? size (frame_dims R l)) && (0 <? size (frame_dims L k)) && (0 <? size (frame_dims R l))) with true by lia. reflexivity.
  Qed.
  (* ranks out of range are an error *)
  Theorem C134_ranks ai p q r (L R : arr A) s : ranks ai p q r -> (forall k l, ~ (cell_rank L q k /\ cell_rank R r l)) -> rank2 zero f ai (Arr L) (Arr R) s = (Err, s).
  Proof.
    intros RK N. unfold rank2. rewrite (ranks_pqr _ _ _ _ RK). cbn [asArr]. cbv zeta.
    set (k := if q <? 0 then q + zlen (dims L) else q). set (l := if r <? 0 then r + zlen (dims R) else r).
    destruct ((k <? 0) || (zlen (dims L) <? k)) eqn:E1; [reflexivity|]. destruct ((l <? 0) || (zlen (dims R) <? l)) eqn:E2; [reflexivity|].
    destruct (N k l). split; split; try reflexivity; lia.
  Qed.
  (* what goes wrong: a scalar left argument panics, and if both cells are the whole arguments the
     function is never called *)
  Theorem C134_scalar_refuted ai p q r x (R : arr A) s : ranks ai p q r -> rank2 zero f ai (Scal x) (Arr R) s = (Panic, s).
  Proof. intros RK. unfold rank2. rewrite (ranks_pqr _ _ _ _ RK). reflexivity. Qed.
  Theorem C134_whole_refuted ai p q r (L R : arr A) s : wf L -> wf R -> ranks ai p q r -> cell_rank L q (zlen (dims L)) -> cell_rank R r (zlen (dims R)) ->
    rank2 zero f ai (Arr L) (Arr R) s = (Ok (Arr (mkArr [] [])), s).
  Proof. intros WL WR RK CL CR. rewrite (rank2_unfold ai p q r L R _ _ WL WR RK CL CR). cbv zeta. rewrite !frame_full. reflexivity. Qed.
End Props.
Print Assumptions C134_monadic.
Print Assumptions C134_pairs.
Print Assumptions C134_left_whole.
Print Assumptions C134_right_whole.
Print Assumptions C134_lengths.
Print Assumptions C134_scalar_refuted.

(* (,⍤1 0) and ⍳⍤1 (as a function with results of different lengths) *)
Definition iota_sum (v : val Z) : eff unit (val Z) := eret (Arr (vec (zseq (fold_right Z.add 0 (elemsOf v))))).
Definition cat_val (a b : val Z) : eff unit (val Z) := eret (Arr (vec (elemsOf a ++ elemsOf b))).
Example C134_example :
  rank1 9 iota_sum [1] (Arr (mkArr [3; 2] [1; 0; 0; 0; 1; 2])) tt = (Ok (Arr (mkArr [3; 3] [0; 9; 9; 9; 9; 9; 0; 1; 2])), tt)
  /\ rank2 0 cat_val [-1; 0] (Arr (mkArr [2; 2] [1; 2; 3; 4])) (Arr (vec [7; 8])) tt = (Ok (Arr (mkArr [2; 3] [1; 2; 7; 3; 4; 8])), tt)
  /\ rank2 0 cat_val [1; 0] (Arr (vec [1; 2])) (Arr (vec [7; 8])) tt = (Ok (Arr (mkArr [2; 3] [1; 2; 7; 1; 2; 8])), tt)
  /\ is_cells (mkArr [2; 2] [1; 2; 3; 4]) 1 [Arr (vec [1; 2]); Arr (vec [3; 4])]
  /\ cell_rank (mkArr [2; 2] [1; 2; 3; 4]) (-1) 1 /\ countable (mkArr [2; 2] [1; 2; 3; 4]) 1
  /\ common [Arr (vec [0]); Arr (vec []); Scal 5; Arr (mkArr [1; 2] [7; 8])] [1; 2]
  /\ conformed 9 [1; 2] (Arr (vec [0])) [0; 9].
Proof.
  do 3 (split; [vm_compute; reflexivity|]). split; [vm_compute; reflexivity|]. split; [split; [reflexivity|cbn; lia]|].
  split; [right; exists 2; split; [reflexivity|vm_compute; discriminate]|]. split.
  - apply (common_shape_ok [Arr (vec [0]); Arr (vec []); Scal 5; Arr (mkArr [1; 2] [7; 8])]). repeat constructor; cbn; try lia; try discriminate.
  - split; [reflexivity|]. intros lead rest L I. cbn [dims vec] in *. destruct lead as [|x [|? ?]].
    + apply Forall2_length in I. cbn in I, L. lia.
    + destruct rest as [|y [|]]; try discriminate L. inversion I as [|? ? ? ? X H]; subst. inversion H as [|? ? ? ? Y H']; subst.
      assert (x = 0) by lia. assert (y = 0 \/ y = 1) as [-> | ->] by lia; subst x; (split; [intros [_ B]|intros N]); try reflexivity.
      * destruct N. split; [apply Forall_cons; [reflexivity|apply Forall_nil]|apply Forall2_cons; [cbn; lia|apply Forall2_nil]].
      * inversion B; subst. cbn in *; lia.
    + apply Forall2_length in I. cbn in I, L. rewrite app_length in I. lia.
Qed.
