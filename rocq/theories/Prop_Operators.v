(* Prop_Operators.v -- properties C38..C44: inner and outer product, each,
   power, commute and compose, at, rank (apl/operators/{dot,each,power,
   commute,jot,at,rank}.go).  Function operands are effectful; an equation
   between computations fixes the number and the order of the calls. *)
From Coq Require Import String.
From Verif Require Import Base M_Array S_Array S_Structural P_Array M_Structural
  P_Reverse P_Take P_Comma P_Structural Eff S_Reduce P_Reduce S_Operators M_Operators P_Operators.

(* ------------------------------------------------------------------ C38 *)
Theorem C38_inner_arrays :
  forall (S A : Type) (f g : A -> A -> eff S A) (L R : arr A) la rb n s,
  wf L -> wf R -> dims L = la ++ [n] -> dims R = n :: rb -> la ++ rb <> [] ->
  inner f g (Arr L) (Arr R) s =
  (let! l := mapE (fun p => inner_fold f g (combine (line L (zlen la) n (fst p)) (line R 0 n (snd p))))
               (list_prod (all_idx la) (all_idx rb)) in
   eret (Arr (mkArr (la ++ rb) l))) s.
Proof. exact @inner_arr_go. Qed.
Print Assumptions C38_inner_arrays.
Theorem C38_inner_vectors :
  forall (S A : Type) (f g : A -> A -> eff S A) (l r : list A) s, zlen l = zlen r ->
  inner f g (Arr (vec l)) (Arr (vec r)) s = emap Scal (inner_fold f g (combine l r)) s.
Proof. exact @inner_vec_go. Qed.
Print Assumptions C38_inner_vectors.
Theorem C38_inner_length_error :
  forall (S A : Type) (f g : A -> A -> eff S A) (L R : arr A) la n m rb s,
  dims L = la ++ [n] -> dims R = m :: rb -> n <> m -> inner f g (Arr L) (Arr R) s = (Err, s).
Proof. exact @inner_mismatch. Qed.
Print Assumptions C38_inner_length_error.
Theorem C38_inner_scalars :
  forall (S A : Type) (f g : A -> A -> eff S A) x y s,
  inner f g (Scal x) (Scal y) s = emap Scal (g x y) s /\
  (forall (R : arr A) r0 rs, dims R = r0 :: rs -> 0 < r0 ->
     inner f g (Scal x) (Arr R) s = inner f g (Arr (vec (repeat x (Z.to_nat r0)))) (Arr R) s) /\
  (forall (L : arr A) la n, dims L = la ++ [n] -> Forall (fun d => 0 < d) (dims L) ->
     inner f g (Arr L) (Scal y) s = inner f g (Arr L) (Arr (vec (repeat y (Z.to_nat n)))) s).
Proof.
  intros. split; [reflexivity|split].
  - intros. apply (inner_scalar_left f g x R r0 rs s); assumption.
  - intros. apply (inner_scalar_right f g y L la n s); assumption.
Qed.
Print Assumptions C38_inner_scalars.
(* What goes wrong: an inner axis of length 0 has no fold; the code calls
   Copy on a nil value (a panic, turned into an error at top level) instead
   of giving the identity element. *)
Theorem C38_inner_empty_axis_refuted :
  forall (S A : Type) (f g : A -> A -> eff S A) s,
  inner f g (Arr (vec [])) (Arr (vec [])) s = (Panic, s).
Proof. intros. reflexivity. Qed.
Print Assumptions C38_inner_empty_axis_refuted.

(* 2 3⍴1..6 +.× 3 2⍴7..12 ; +.× logs its calls in the state *)
Definition ladd (tag : string) (op : Z -> Z -> Z) (x y : Z) : eff (list (string * Z * Z)) Z :=
  fun s => (Ok (op x y), s ++ [(tag, x, y)]).
Example C38_example :
  let L := mkArr [2; 3] [1;2;3;4;5;6] in
  let R := mkArr [3; 2] [7;8;9;10;11;12] in
  (exists log, inner (ladd "+" Z.add) (ladd "x" Z.mul) (Arr L) (Arr R) [] = (Ok (Arr (mkArr [2; 2] [58; 64; 139; 154])), log)) /\
  inner (ladd "+" Z.add) (ladd "x" Z.mul) (Arr (vec [1; 2; 3])) (Arr (vec [4; 5; 6])) [] =
    (Ok (Scal 32), [("x", 3, 6); ("x", 2, 5); ("+", 10, 18); ("x", 1, 4); ("+", 4, 28)]%string).
Proof. split; [eexists; vm_compute; reflexivity | vm_compute; reflexivity]. Qed.

(* ------------------------------------------------------------------ C39 *)
Theorem C39_outer_arrays :
  forall (S A : Type) (g : A -> A -> eff S A) (L R : arr A) s, wf L -> wf R ->
  outer g (Arr L) (Arr R) s =
  (let! l := mapE (fun p => g (fst p) (snd p)) (list_prod (elems L) (elems R)) in
   eret (Arr (mkArr (dims L ++ dims R) l))) s.
Proof. exact @outer_arr. Qed.
Print Assumptions C39_outer_arrays.
Lemma pos_app a : forall b I J, length a = length I -> pos (a ++ b) (I ++ J) = pos a I * size b + pos b J.
Proof.
  induction a as [|d a IH]; intros b [|i I] J H; try discriminate; [cbn; lia|].
  cbn [app pos]. injection H as H. rewrite (IH b I J H), size_app. lia.
Qed.
(* element by element, for a function without effects *)
Lemma znth_list_prod {A B} (l : list A) (m : list B) i j x y :
  znth l i = Some x -> znth m j = Some y -> znth (list_prod l m) (i * zlen m + j) = Some (x, y).
Proof.
  revert i. induction l as [|a l IH]; intros i Hx Hy.
  - pose proof (znth_some_range _ _ _ Hx) as H. cbn in H. lia.
  - pose proof (znth_some_range _ _ _ Hy) as Hj. pose proof (znth_some_range _ _ _ Hx) as Hi.
    cbn [list_prod]. destruct (Z.eq_dec i 0) as [->|Hn].
    + cbn in Hx. injection Hx as ->. rewrite znth_app_l by (zla; lia). rewrite znth_map.
      replace (0 * zlen m + j) with j by lia. rewrite Hy. reflexivity.
    + rewrite znth_app_r by (zla; nia). zla. rewrite znth_cons_pos in Hx by lia.
      replace (i * zlen m + j - zlen m) with ((i - 1) * zlen m + j) by lia. apply IH; assumption.
Qed.
Theorem C39_outer_elements :
  forall (S A : Type) (g : A -> A -> eff S A) (G : A -> A -> A) (L R : arr A) s,
  (forall x y t, g x y t = (Ok (G x y), t)) -> wf L -> wf R ->
  exists r, outer g (Arr L) (Arr R) s = (Ok (Arr r), s) /\ wf r /\ dims r = dims L ++ dims R /\
    forall I J x y, inb (dims L) I -> inb (dims R) J ->
      elem L I = Some x -> elem R J = Some y -> elem r (I ++ J) = Some (G x y).
Proof.
  intros S A g G L R s Hg HL HR.
  exists (mkArr (dims L ++ dims R) (map (fun p => G (fst p) (snd p)) (list_prod (elems L) (elems R)))).
  destruct HL as (HL1 & HL2 & HL3). destruct HR as (HR1 & HR2 & HR3).
  split; [|split; [|split]].
  - rewrite outer_arr by (repeat split; assumption). unfold ebind.
    rewrite (mapE_ok_pure _ (fun p => G (fst p) (snd p))) by (intros; apply Hg). reflexivity.
  - repeat split; cbn [dims elems].
    + destruct (dims L); [congruence|discriminate].
    + apply Forall_app; split; assumption.
    + rewrite size_app, <- HL3, <- HR3. zla. unfold zlen. rewrite prod_length. lia.
  - reflexivity.
  - intros I J x y HI HJ Hx Hy. unfold elem in *. cbn [dims elems].
    rewrite pos_app by (apply inb_length in HI; lia). rewrite znth_map. rewrite <- HR3.
    rewrite (znth_list_prod _ _ _ _ x y Hx Hy). reflexivity.
Qed.
Print Assumptions C39_outer_elements.
Theorem C39_outer_scalar_partial :
  forall (S A : Type) (g : A -> A -> eff S A) x (R : arr A) s, wf R ->
  outer g (Scal x) (Arr R) s =
  (let! l := mapE (g x) (elems R) in eret (Arr (mkArr (1 :: dims R) l))) s.
Proof.
  intros. change (outer g (Scal x) (Arr R) s) with (outer g (Arr (vec [x])) (Arr R) s).
  rewrite outer_arr; [|apply wf_vec|assumption].
  cbn [list_prod dims elems vec]. rewrite app_nil_r. apply ebind_ext; [|reflexivity].
  rewrite mapE_map. reflexivity.
Qed.
Print Assumptions C39_outer_scalar_partial.
(* What goes wrong: a scalar argument contributes an axis of length 1
   (⍴1∘.+1 2 3 is 1 3, not 3), and the empty value panics. *)
Theorem C39_outer_scalar_shape_refuted :
  outer (fun x y => @eret unit Z (x + y)) (Scal 1) (Arr (vec [1; 2; 3])) tt =
    (Ok (Arr (mkArr [1; 3] [2; 3; 4])), tt) /\
  outer (fun x y => @eret unit Z (x + y)) (Arr (vec [1; 2])) Emp tt = (Panic, tt).
Proof. split; vm_compute; reflexivity. Qed.
Print Assumptions C39_outer_scalar_shape_refuted.
Example C39_example :
  outer (ladd "-" Z.sub) (Arr (vec [10; 20])) (Arr (vec [1; 2; 3])) [] =
  (Ok (Arr (mkArr [2; 3] [9; 8; 7; 19; 18; 17])),
   [("-", 10, 1); ("-", 10, 2); ("-", 10, 3); ("-", 20, 1); ("-", 20, 2); ("-", 20, 3)]%string).
Proof. vm_compute. reflexivity. Qed.

(* ------------------------------------------------------------------ C40 *)
Theorem C40_each_monadic :
  forall (S A : Type) (f : A -> eff S (val A)) (g : A -> eff S A) (a : arr A) s,
  (forall x t, f x t = emap Scal (g x) t) -> wf a -> elems a <> [] ->
  each1 f (Arr a) s = (let! l := mapE g (elems a) in eret (Arr (mkArr (dims a) l))) s.
Proof.
  intros S A f g a s Hf Hw Hne. rewrite each1_arr by assumption.
  apply ebind_ext; [|reflexivity]. apply mapE_ext. intros x t _. unfold ebind at 1. rewrite Hf.
  unfold emap, ebind. destruct (g x t) as [[| |] ?]; reflexivity.
Qed.
Print Assumptions C40_each_monadic.
(* a result that is itself an array is refused, at the first such element *)
Theorem C40_each_array_result :
  forall (S A : Type) (f : A -> eff S (val A)) (a : arr A) s, wf a -> elems a <> [] ->
  each1 f (Arr a) s =
  (let! l := mapE (fun x => let! v := f x in match v with Scal y => eret y | _ => efail end) (elems a) in
   eret (Arr (mkArr (dims a) l))) s.
Proof. exact @each1_arr. Qed.
Print Assumptions C40_each_array_result.
Theorem C40_each_scalar :
  forall (S A : Type) (f : A -> eff S (val A)) (g : A -> A -> eff S (val A)) x y s,
  each1 f (Scal x) s = f x s /\ each2 g (Scal x) (Scal y) s = g x y s.
Proof. intros. split; reflexivity. Qed.
Print Assumptions C40_each_scalar.
Theorem C40_each_dyadic :
  forall (S A : Type) (f : A -> A -> eff S (val A)) (g : A -> A -> eff S A) (L R : arr A) s,
  (forall x y t, f x y t = emap Scal (g x y) t) ->
  wf L -> wf R -> dims L = dims R -> elems R <> [] ->
  each2 f (Arr L) (Arr R) s =
  (let! l := mapE (fun p => g (fst p) (snd p)) (combine (elems L) (elems R)) in eret (Arr (mkArr (dims R) l))) s.
Proof.
  intros S A f g L R s Hf HL HR Hd Hne. rewrite each2_arr by assumption.
  apply ebind_ext; [|reflexivity]. apply mapE_ext. intros x t _. unfold ebind at 1. rewrite Hf.
  unfold emap, ebind. destruct (g (fst x) (snd x) t) as [[| |] ?]; reflexivity.
Qed.
Print Assumptions C40_each_dyadic.
Theorem C40_each_scalar_extension :
  forall (S A : Type) (f : A -> A -> eff S (val A)) (g : A -> A -> eff S A) x (R : arr A) s,
  (forall x y t, f x y t = emap Scal (g x y) t) ->
  wf R -> elems R <> [] ->
  each2 f (Scal x) (Arr R) s = (let! l := mapE (fun y => g x y) (elems R) in eret (Arr (mkArr (dims R) l))) s /\
  each2 f (Arr R) (Scal x) s = (let! l := mapE (fun y => g y x) (elems R) in eret (Arr (mkArr (dims R) l))) s.
Proof.
  intros S A f g x R s Hf HR Hne. destruct (each2_scalar f x R s HR Hne) as (E1 & E2).
  rewrite E1, E2. split; (apply ebind_ext; [|reflexivity]); apply mapE_ext; intros y t _; unfold ebind at 1; rewrite Hf;
  unfold emap, ebind; [destruct (g x y t) as [[| |] ?]|destruct (g y x t) as [[| |] ?]]; reflexivity.
Qed.
Print Assumptions C40_each_scalar_extension.
Theorem C40_each_shape_error :
  forall (S A : Type) (f : A -> A -> eff S (val A)) (L R : arr A) s,
  elems L <> [] -> elems R <> [] -> dims L <> dims R -> each2 f (Arr L) (Arr R) s = (Err, s).
Proof. exact @each2_shape_error. Qed.
Print Assumptions C40_each_shape_error.
Theorem C40_each_lists :
  forall (S A : Type) (f : A -> eff S A) (g : A -> A -> eff S A) (l r : list A) v s,
  eachList f l s = mapE f l s /\
  (zlen l = zlen r -> eachList2 g (inr l) (inr r) s = mapE (fun p => g (fst p) (snd p)) (combine l r) s) /\
  (zlen l <> zlen r -> eachList2 g (inr l) (inr r) s = (Err, s)) /\
  eachList2 g (inr l) (inl v) s = mapE (fun x => g x v) l s.
Proof.
  intros. split; [reflexivity|split; [|split]].
  - apply eachList2_both.
  - intros H. unfold eachList2. replace (negb (zlen r =? zlen l)) with true by lia. reflexivity.
  - unfold eachList2. etransitivity; [|apply (mapE_zseq_At (fun x => g x v) l s)].
    apply mapE_ext. intros x t _. reflexivity.
Qed.
Print Assumptions C40_each_lists.
(* What goes wrong: an array with a zero axis becomes the empty value and
   loses its shape; a scalar does not extend to a list on the right; an
   unequal pair is accepted if one side is empty. *)
Theorem C40_each_refuted :
  each1 (fun x => @eret unit (val Z) (Scal x)) (Arr (mkArr [2; 0] [])) tt = (Ok Emp, tt) /\
  eachList2 (fun x y => @eret unit Z (x + y)) (inl 1) (inr [1; 2]) tt = (Err, tt) /\
  each2 (fun x y => @eret unit (val Z) (Scal (x + y))) (Arr (vec [1; 2])) (Arr (mkArr [0; 3] [])) tt = (Ok Emp, tt).
Proof. repeat split; vm_compute; reflexivity. Qed.
Print Assumptions C40_each_refuted.
Example C40_example :
  each2 (fun x y => emap Scal (ladd "-" Z.sub x y)) (Arr (mkArr [2; 2] [1;2;3;4])) (Arr (mkArr [2; 2] [5;6;7;8])) [] =
  (Ok (Arr (mkArr [2; 2] [-4; -4; -4; -4])), [("-",1,5); ("-",2,6); ("-",3,7); ("-",4,8)]%string) /\
  wf (mkArr [2; 2] [1;2;3;4]).
Proof. split; [vm_compute; reflexivity|]. repeat split; [discriminate|repeat constructor; lia]. Qed.

(* ------------------------------------------------------------------ C41 *)
Theorem C41_power_iterates :
  forall (S V : Type) (f : V -> eff S V) n v s, 0 <= n -> power_n f n v s = iterE f (Z.to_nat n) v s.
Proof. exact @power_n_iter. Qed.
Print Assumptions C41_power_iterates.
Theorem C41_power_zero :
  forall (S V : Type) (f : V -> eff S V) v s, power_n f 0 v s = (Ok v, s).
Proof. reflexivity. Qed.
Print Assumptions C41_power_zero.
Theorem C41_power_add :
  forall (S V : Type) (f : V -> eff S V) m n v s, 0 <= m -> 0 <= n ->
  power_n f (m + n) v s = (let! w := power_n f n v in power_n f m w) s.
Proof.
  intros S V f m n v s Hm Hn. rewrite power_n_iter by lia. rewrite Z2Nat.inj_add by lia. rewrite iterE_add.
  apply ebind_ext; [symmetry; apply power_n_iter; lia|]. intros w t. symmetry. apply power_n_iter. lia.
Qed.
Print Assumptions C41_power_add.
Theorem C41_power_negative :
  forall (S V : Type) (f : V -> eff S V) n v s, n < 0 -> power_n f n v s = (Err, s).
Proof. intros. unfold power_n. replace (n <? 0) with true by lia. reflexivity. Qed.
Print Assumptions C41_power_negative.
(* until: the first k at which G(F^(k+1) R, F^k R) is 1 *)
Theorem C41_power_until :
  forall (S V : Type) (f : V -> eff S V) g (toIndex : V -> option Z) (F : V -> V) (G : V -> V -> V),
  (forall v t, f v t = (Ok (F v), t)) -> (forall v w t, g v w t = (Ok (G v w), t)) ->
  forall k r s, (k <= 1000)%nat ->
  (forall i, (i < k)%nat -> exists n, toIndex (G (Nat.iter (i + 1) F r) (Nat.iter i F r)) = Some n /\ n <> 1) ->
  toIndex (G (Nat.iter (k + 1) F r) (Nat.iter k F r)) = Some 1 ->
  power_f f g toIndex r s = (Ok (Nat.iter (k + 1) F r), s).
Proof.
  intros S V f g toIndex F G Hf Hg k r s Hk Hi Hl. rewrite Nat.add_1_r in *.
  apply (power_loop_stops f g toIndex F G Hf Hg).
  - unfold powerlimit. lia.
  - intros i Hik. destruct (Hi i Hik) as (n & Hn). rewrite Nat.add_1_r in Hn. eauto.
  - assumption.
Qed.
Print Assumptions C41_power_until.
(* cut off: 1001 iterations without success are an error, whatever F and G do *)
Theorem C41_power_limit :
  forall (S V : Type) (f : V -> eff S V) g (toIndex : V -> option Z) (F : V -> V) (G : V -> V -> V),
  (forall v t, f v t = (Ok (F v), t)) -> (forall v w t, g v w t = (Ok (G v w), t)) ->
  forall r s,
  (forall i, (i <= 1000)%nat -> exists n, toIndex (G (Nat.iter (i + 1) F r) (Nat.iter i F r)) = Some n /\ n <> 1) ->
  power_f f g toIndex r s = (Err, s).
Proof.
  intros S V f g toIndex F G Hf Hg r s Hi.
  apply (power_loop_limit f g toIndex F G Hf Hg).
  intros i Hik. destruct (Hi i) as (n & Hn); [unfold powerlimit in Hik; lia|].
  rewrite Nat.add_1_r in Hn. eauto.
Qed.
Print Assumptions C41_power_limit.
Example C41_example :
  (* halving until a fixed point: (⌊÷2)⍣≡ 10 *)
  power_f (fun v => @eret unit Z (v / 2)) (fun v w => eret (if v =? w then 1 else 0)) Some 10 tt = (Ok 0, tt) /\
  power_f (fun v => @eret unit Z (v + 1)) (fun v w => eret (if v =? w then 1 else 0)) Some 10 tt = (Err, tt) /\
  power_n (fun v => fun n => (Ok (2 * v), n + 1)) 10 1 0 = (Ok 1024, 10).
Proof. repeat split; vm_compute; reflexivity. Qed.

(* ------------------------------------------------------------------ C42 *)
Theorem C42_commute :
  forall (S V : Type) (f : afun S V) L R s,
  commute f (Some L) R s = f (Some R) L s /\ commute f None R s = f (Some R) R s.
Proof. split; reflexivity. Qed.
Print Assumptions C42_commute.
Theorem C42_commute_twice :
  forall (S V : Type) (f : afun S V) L R s, commute (commute f) (Some L) R s = f (Some L) R s.
Proof. reflexivity. Qed.
Print Assumptions C42_commute_twice.
Theorem C42_compose :
  forall (S V : Type) (f g : afun S V) A B L R s,
  compose (OFun f) (OFun g) None R s = (let! v := g None R in f None v) s /\
  compose (OFun f) (OFun g) (Some L) R s = (let! v := g None R in f (Some L) v) s /\
  compose (OVal A) (OFun f) None R s = f (Some A) R s /\
  compose (OFun f) (OVal B) None R s = f (Some R) B s.
Proof. repeat split; reflexivity. Qed.
Print Assumptions C42_compose.
(* composition is associative, with one or two arguments *)
Theorem C42_compose_assoc :
  forall (S V : Type) (f g h : afun S V) L R s,
  compose (OFun f) (OFun (compose (OFun g) (OFun h))) L R s =
  compose (OFun (compose (OFun f) (OFun g))) (OFun h) L R s.
Proof. intros. destruct L; unfold compose; [|rewrite ebind_assoc]; try reflexivity; apply ebind_assoc. Qed.
Print Assumptions C42_compose_assoc.
Theorem C42_compose_errors :
  forall (S V : Type) (f : operand S V) (g : afun S V) A B L R s,
  compose (OVal A) (OVal B) None R s = (Err, s) /\
  compose f (OVal B) (Some L) R s = (Err, s) /\ compose (OVal A) (OFun g) (Some L) R s = (Err, s).
Proof. intros. destruct f; repeat split; reflexivity. Qed.
Print Assumptions C42_compose_errors.
Definition aminus : afun (list (Z * Z)) Z := fun L R s =>
  match L with Some l => (Ok (l - R), s ++ [(l, R)]) | None => (Ok (- R), s ++ [(0, R)]) end.
Example C42_example :
  commute aminus (Some 10) 3 [] = (Ok (-7), [(3, 10)]) /\
  compose (OFun aminus) (OFun aminus) (Some 10) 3 [] = (Ok 13, [(0, 3); (10, -3)]).
Proof. split; reflexivity. Qed.

(* ------------------------------------------------------------------ C43 *)
(* The index list must be increasing; f gets the selected major cells. *)
Theorem C43_at_index_partial :
  forall (S A : Type) (zero : A) (toBool : A -> option bool) origin (rep : replacer S A) I (a : arr A) d ds s,
  wf a -> dims a = d :: ds -> 0 < d -> increasing I -> Forall (fun g => 0 <= g - origin < d) I ->
  exists sel, cells_of origin I a sel /\
    match (match rep with RepFn f => f sel s | RepVal w => (Ok w, s) end) with
    | (Ok v, s') =>
        (zlen (elemsOf v) = zlen I * size ds -> exists r,
           at_op zero toBool origin rep (SelIdx (vec I)) (Arr a) s = (Ok (Arr r), s') /\ placed origin I a (elemsOf v) r) /\
        (forall x, elemsOf v = [x] -> exists r,
           at_op zero toBool origin rep (SelIdx (vec I)) (Arr a) s = (Ok (Arr r), s') /\
           placed origin I a (repeat x (Z.to_nat (zlen I * size ds))) r) /\
        (zlen (elemsOf v) <> 1 -> zlen (elemsOf v) <> zlen I * size ds ->
           at_op zero toBool origin rep (SelIdx (vec I)) (Arr a) s = (Err, s'))
    | (Err, s') => at_op zero toBool origin rep (SelIdx (vec I)) (Arr a) s = (Err, s')
    | (Panic, s') => at_op zero toBool origin rep (SelIdx (vec I)) (Arr a) s = (Panic, s')
    end.
Proof. exact @at_op_index. Qed.
Print Assumptions C43_at_index_partial.
Theorem C43_at_boolean_function :
  forall (S A : Type) (zero : A) (toBool : A -> option bool) origin (f : arr A -> eff S (val A)) g (a : arr A) b mask s s1,
  wf a -> g (Arr a) s = (Ok (Arr b), s1) -> zlen (elems b) = zlen (elems a) ->
  map toBool (elems b) = map Some mask ->
  let sel := selected mask (elems a) in
  match f (vec sel) s1 with
  | (Ok v, s') =>
      (forall vs, (elemsOf v = vs /\ zlen vs = zlen sel) \/ (exists x, elemsOf v = [x] /\ vs = repeat x (length sel)) ->
        exists r, at_op zero toBool origin (RepFn f) (SelFn g) (Arr a) s = (Ok (Arr r), s') /\
          wf r /\ dims r = dims a /\ selected mask (elems r) = vs /\
          forall i, znth mask i = Some false -> znth (elems r) i = znth (elems a) i) /\
      (zlen (elemsOf v) <> 1 -> zlen (elemsOf v) <> zlen sel ->
        at_op zero toBool origin (RepFn f) (SelFn g) (Arr a) s = (Err, s'))
  | (Err, s') => at_op zero toBool origin (RepFn f) (SelFn g) (Arr a) s = (Err, s')
  | (Panic, s') => at_op zero toBool origin (RepFn f) (SelFn g) (Arr a) s = (Panic, s')
  end.
Proof. exact @at_op_mask. Qed.
Print Assumptions C43_at_boolean_function.
Theorem C43_at_index_out_of_range :
  forall (S A : Type) (zero : A) (toBool : A -> option bool) origin (rep : replacer S A) I (a : arr A) d ds s,
  wf a -> dims a = d :: ds -> 0 < d -> (exists g, In g I /\ ~ 0 <= g - origin < d) ->
  at_op zero toBool origin rep (SelIdx (vec I)) (Arr a) s = (Err, s).
Proof.
  intros S A zero toBool origin rep I a d ds s Hw Hd Hp HI.
  unfold at_op. cbn [asArr]. unfold at_mask. rewrite Hd. cbn [dims vec elems].
  change (zlen [zlen I]) with 1. cbn [Z.eqb negb]. change (zat (d :: ds) 0) with (Ok d).
  unfold ebind, elift. replace (d =? 0) with false by lia. rewrite mask_idx_err by exact HI. reflexivity.
Qed.
Print Assumptions C43_at_index_out_of_range.
(* What goes wrong: the cells are taken in the order of R, not of I; a
   duplicate in I leaves a filler at the end of the argument of F and the
   result does not fit. *)
Theorem C43_at_order_refuted :
  at_op 0 (fun x => Some (x =? 1)) 1 (RepVal (Arr (vec [10; 20]))) (SelIdx (vec [3; 1])) (Arr (vec [1; 2; 3])) tt =
    (Ok (Arr (vec [10; 2; 20])), tt) /\
  at_op 0 (fun x => Some (x =? 1)) 1 (RepVal (Arr (vec [10; 20]))) (SelIdx (vec [1; 1])) (Arr (vec [1; 2; 3])) tt =
    (Err, tt) /\
  at_op 0 (fun x => Some (x =? 1)) 1 (RepFn (fun a s => (Ok (Arr a), elems a))) (SelIdx (vec [1; 1])) (Arr (vec [1; 2; 3])) [] =
    (Err, [1; 0]).
Proof. repeat split; vm_compute; reflexivity. Qed.
Print Assumptions C43_at_order_refuted.
Example C43_example :
  at_op 0 (fun x => Some (x =? 1)) 1 (RepFn (fun a => @eret unit _ (Arr (mkArr (dims a) (map (Z.mul 10) (elems a))))))
     (SelIdx (vec [1; 3])) (Arr (mkArr [3; 2] [1;2;3;4;5;6])) tt =
    (Ok (Arr (mkArr [3; 2] [10; 20; 3; 4; 50; 60])), tt) /\
  increasing [1; 3] /\ Forall (fun g => 0 <= g - 1 < 3) [1; 3].
Proof.
  split; [vm_compute; reflexivity|split].
  - intros p q x y Hpq Hx Hy. pose proof (znth_some_range _ _ _ Hx) as H1. pose proof (znth_some_range _ _ _ Hy) as H2.
    cbn in H1, H2. assert (p = 0 /\ q = 1) as (-> & ->) by lia. cbn in Hx, Hy. congruence || (injection Hx as <-; injection Hy as <-; lia).
  - repeat constructor; lia.
Qed.

(* ------------------------------------------------------------------ C44 *)
(* Proved for k below the full rank when the frame has one axis (or k = 0, or
   more generally when the number of cells does not exceed the length of the
   last frame axis by more than one). *)
Theorem C44_rank_cells_partial :
  forall (S A : Type) (zero : A) (f : val A -> eff S (val A)) k (a : arr A) (cells : list (val A)) s,
  wf a -> 0 <= k < zlen (dims a) ->
  (k = 0 \/ exists d, znth (dims a) (zlen (dims a) - 1 - k) = Some d /\ size (frame_dims a k) <= d + 1) ->
  map Some cells = map (cell_val a k) (zseq (size (frame_dims a k))) ->
  match mapE f cells s with
  | (Ok results, s') =>
      (forall xs, results = map Scal xs ->
         rank1 zero f [k] (Arr a) s = (Ok (Arr (mkArr (frame_dims a k) xs)), s')) /\
      (forall bs cs, results = map Arr bs -> bs <> [] -> Forall (fun b => wf b /\ dims b = cs) bs ->
         rank1 zero f [k] (Arr a) s = (Ok (Arr (mkArr (frame_dims a k ++ cs) (concat (map elems bs)))), s'))
  | (Err, s') => rank1 zero f [k] (Arr a) s = (Err, s')
  | (Panic, s') => rank1 zero f [k] (Arr a) s = (Panic, s')
  end.
Proof. exact @rank1_ok. Qed.
Print Assumptions C44_rank_cells_partial.
(* What goes wrong: at full rank f is never applied (the result is an array
   without axes or elements); with a frame of two axes the cell number is
   compared with one axis only and the call fails. *)
Theorem C44_rank_refuted :
  (forall (S A : Type) (zero : A) (f : val A -> eff S (val A)) (a : arr A) s, wf a ->
     rank1 zero f [zlen (dims a)] (Arr a) s = (Ok (Arr (mkArr [] [])), s)) /\
  rank1 0 (fun v => @eret unit _ v) [1] (Arr (mkArr [2; 3; 1] [1;2;3;4;5;6])) tt = (Err, tt).
Proof.
  split; [|vm_compute; reflexivity].
  intros S A zero f a s (Hne & _). unfold rank1. cbn [rank_pqr asArr]. cbv zeta.
  pose proof (zlen_nonneg (dims a)) as H0.
  assert (E : (zlen (dims a) <? 0) = false) by lia. rewrite E. rewrite E.
  rewrite Z.ltb_irrefl. cbn [orb].
  unfold rank_frame. rewrite Z.sub_diag. rewrite E. cbn. reflexivity.
Qed.
Print Assumptions C44_rank_refuted.
Example C44_example :
  rank1 0 (fun v => eret (Scal (fold_right Z.add 0 (elemsOf v)))) [1] (Arr (mkArr [2; 3] [1;2;3;4;5;6])) tt =
  (Ok (Arr (vec [6; 15])), tt) /\
  rank1 0 (fun v => eret (Arr (vec (rev (elemsOf v))))) [1] (Arr (mkArr [2; 3] [1;2;3;4;5;6])) tt =
  (Ok (Arr (mkArr [2; 3] [3; 2; 1; 6; 5; 4])), tt).
Proof. split; vm_compute; reflexivity. Qed.
