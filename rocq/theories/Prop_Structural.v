(* Prop_Structural.v -- properties C01..C16 (arrays and structural primitives).
   Statements use only S_Array / S_Structural vocabulary (size, inb, pos, wf,
   elem, vec, del, ...) and the model functions of M_Array / M_Structural. *)
From Verif Require Import Base M_Array S_Array S_Structural P_Array M_Structural
  P_Reverse P_Transpose P_Take P_Comma P_Structural.

(* ------------------------------------------------------------------ C01 *)
Theorem C01_addressing_bijection :
  forall ds, ds <> [] -> Forall (fun d => 0 <= d) ds ->
  exists ic, NewIdxConverter ds = Ok ic /\
    (forall idx, inb ds idx ->
       0 <= ic_index ic idx < size ds /\ ic_indexes ic (ic_index ic idx) = Ok idx) /\
    (forall n, 0 <= n < size ds ->
       exists idx, ic_indexes ic n = Ok idx /\ inb ds idx /\ ic_index ic idx = n) /\
    (forall idx, inb ds idx -> ic_index ic idx = pos ds idx).
Proof.
  intros ds Hne Hnn. exists (strides ds). split; [apply NewIdxConverter_ok; exact Hne|]. split; [|split].
  - intros idx Hin. rewrite ic_index_pos by (apply inb_length; exact Hin). split; [apply pos_range; exact Hin|].
    apply ic_indexes_index. exact Hin.
  - intros n Hn. destruct (ic_indexes_spec ds n Hnn Hn) as (idx & H1 & H2 & H3). exists idx.
    split; [exact H1|]. split; [exact H2|]. rewrite ic_index_pos by (apply inb_length; exact H2). exact H3.
  - intros idx Hin. apply ic_index_pos. apply inb_length. exact Hin.
Qed.
Print Assumptions C01_addressing_bijection.

(* k steps of the odometer from all zeros reach the index of flat position k;
   the step after the last one is all zeros again *)
Theorem C01_odometer_enumerates :
  forall ds, ds <> [] -> Forall (fun d => 0 <= d) ds ->
  forall k, Z.of_nat k < size ds ->
  let idx := Nat.iter k (fun i => IncArrayIndex i ds) (repeat 0 (length ds)) in
  inb ds idx /\ pos ds idx = Z.of_nat k /\
  (Z.of_nat k = size ds - 1 -> IncArrayIndex idx ds = repeat 0 (length ds)).
Proof. exact odometer_enumerates. Qed.
Print Assumptions C01_odometer_enumerates.

Example C01_example :
  NewIdxConverter [2;3;4] = Ok [12;4;1] /\ inb [2;3;4] [1;2;3] /\
  ic_index [12;4;1] [1;2;3] = 23 /\ ic_indexes [12;4;1] 23 = Ok [1;2;3] /\
  IncArrayIndex [0;2;3] [2;3;4] = [1;0;0].
Proof.
  split; [reflexivity|]. split; [repeat (apply Forall2_cons; [lia|]); apply Forall2_nil|].
  repeat split; reflexivity.
Qed.

(* ------------------------------------------------------------------ C02 *)
(* A machine integer has 64 bits: the number of elements of the result must be one. *)
Theorem C02_reshape_cyclic :
  forall (A : Type) (z : A) (S : list Z) (R : arr A),
  elems R <> [] -> S <> [] -> Forall (fun d => 0 <= d) S -> size S < 2 ^ 63 ->
  exists r, rho2 z S (Arr R) = Ok (Arr r) /\ wf r /\ dims r = S /\
    forall k, 0 <= k < size S -> znth (elems r) k = znth (elems R) (k mod zlen (elems R)).
Proof.
  intros A z S R He HS Hnn HW. assert (HW' : - 2 ^ 63 <= Prod S < 2 ^ 63)
    by (rewrite Prod_size by exact HS; pose proof (size_nonneg S Hnn); lia). destruct (Reshape_spec R S He HS Hnn) as (r & E & Hw & Hd & Hk).
  exists r. unfold rho2. destruct S as [|s0 S']; [congruence|]. cbn [asArr]. rewrite (ReshapeUser_fits R _ HW'), E.
  split; [reflexivity|]. split; [exact Hw|]. split; [exact Hd|]. exact Hk.
Qed.
Print Assumptions C02_reshape_cyclic.

Theorem C02_reshape_scalar :
  forall (A : Type) (z v : A) (S : list Z),
  S <> [] -> Forall (fun d => 0 <= d) S -> size S < 2 ^ 63 ->
  exists r, rho2 z S (Scal v) = Ok (Arr r) /\ wf r /\ dims r = S /\
    forall idx, inb S idx -> elem r idx = Some v.
Proof.
  intros A z v S HS Hnn HW. assert (HW' : - 2 ^ 63 <= Prod S < 2 ^ 63)
    by (rewrite Prod_size by exact HS; pose proof (size_nonneg S Hnn); lia). destruct (Reshape_spec (mkArr [1] [v]) S) as (r & E & Hw & Hd & Hk); [discriminate|exact HS|exact Hnn|].
  exists r. unfold rho2. destruct S as [|s0 S']; [congruence|]. cbn [asArr]. rewrite (ReshapeUser_fits _ _ HW'), E.
  split; [reflexivity|]. split; [exact Hw|]. split; [exact Hd|]. intros idx Hin.
  unfold elem. rewrite Hd, Hk by (apply pos_range; exact Hin). cbn [elems].
  change (zlen [v]) with 1. rewrite Z.mod_1_r. reflexivity.
Qed.
Print Assumptions C02_reshape_scalar.

Theorem C02_reshape_own_shape :
  forall (A : Type) (z : A) (R : arr A), wf R -> elems R <> [] -> zlen (elems R) < 2 ^ 63 ->
  rho2 z (dims R) (Arr R) = Ok (Arr R) /\ rho2 z (dims R) (ravel (Arr R)) = Ok (Arr R).
Proof.
  intros A z R Hw He HW. assert (HW' : - 2 ^ 63 <= Prod (dims R) < 2 ^ 63).
  { pose proof Hw as (H1 & H2 & H3). rewrite Prod_size by exact H1. pose proof (size_nonneg _ H2). lia. }
  unfold rho2. destruct (dims R) as [|d r] eqn:E; [destruct Hw; congruence|].
  cbn [asArr ravel elemsOf]. rewrite !ReshapeUser_fits by exact HW'. rewrite <- E. split; (rewrite Reshape_self; [reflexivity|assumption|assumption|reflexivity]).
Qed.
Print Assumptions C02_reshape_own_shape.

Theorem C02_reshape_empty_shape :
  forall (A : Type) (z : A) (R : val A), rho2 z [] R = Ok Emp.
Proof. reflexivity. Qed.

Example C02_example : rho2 0 [2;3] (Arr (vec [1;2;3;4])) = Ok (Arr (mkArr [2;3] [1;2;3;4;1;2])).
Proof. reflexivity. Qed.

(* Finding: lengths are not checked for sign; two negative lengths produce an
   "array" with a negative shape (6 elements, shape ¯2 ¯3). *)
Theorem C02_negative_lengths_accepted :
  exists r, rho2 0 [-2;-3] (Arr (vec [1;2;3;4;5;6])) = Ok (Arr r) /\ dims r = [-2;-3] /\ zlen (elems r) = 6.
Proof. eexists. split; [reflexivity|]. split; reflexivity. Qed.
(* Finding: the number of elements is a machine integer.  4294967296 4294967296⍴1 has 2*64 elements,
   which is 0 to the machine: the result claims its shape and has no elements. *)
Theorem C02_overflow_accepted :
  rho2 0 [2 ^ 32; 2 ^ 32] (Arr (vec [1])) = Ok (Arr (mkArr [2 ^ 32; 2 ^ 32] [])) /\
  ~ wf (mkArr [2 ^ 32; 2 ^ 32] (@nil Z)).
Proof. split; [reflexivity|]. intros (_ & _ & H). vm_compute in H. discriminate. Qed.
Print Assumptions C02_overflow_accepted.

(* ------------------------------------------------------------------ C03 *)
Theorem C03_shape_of_reshape :
  forall (A : Type) (z : A) (S : list Z) (R : arr A) r,
  S <> [] -> rho2 z S (Arr R) = Ok r ->
  rho1 r = Arr (vec S) /\ rho1 (rho1 r) = Arr (vec [zlen S]).
Proof.
  intros A z S R r HS H. unfold rho2 in H. destruct S as [|s0 S']; [congruence|]. cbn [asArr] in H.
  unfold ReshapeUser in H. destruct (wrap64 (Prod (s0 :: S')) <? 0); [discriminate|].
  destruct (reshape_loop _ 0 (elems R)) as [l| |]; cbn [obind omap] in H; try discriminate.
  inversion H; subst r. split; reflexivity.
Qed.
Print Assumptions C03_shape_of_reshape.
Theorem C03_shape_scalar_and_empty :
  forall (A : Type) (x : A), rho1 (Scal x) = Emp /\ rho1 (@Emp A) = Arr (vec [0]).
Proof. intros A x. split; reflexivity. Qed.
Theorem C03_rank_counts_axes :
  forall (A : Type) (R : arr A),
  rho1 (Arr R) = Arr (vec (dims R)) /\ rho1 (rho1 (Arr R)) = Arr (vec [zlen (dims R)]).
Proof. intros A R. split; reflexivity. Qed.
Print Assumptions C03_rank_counts_axes.
Example C03_example : omap rho1 (rho2 0 [2;3] (Arr (vec [1;2]))) = Ok (Arr (vec [2;3])).
Proof. reflexivity. Qed.

(* ------------------------------------------------------------------ C04 *)
(* MixedArray and IntArray; [conv] is the type check of the value. *)
Theorem C04_store_mixed_int :
  forall (V A : Type) (conv : V -> option A) (a : arr A) i v,
  (~ (0 <= i < zlen (elems a)) -> Set_ge conv a i v = Err) /\
  (0 <= i < zlen (elems a) -> forall x, conv v = Some x ->
     exists a', Set_ge conv a i v = Ok a' /\ dims a' = dims a /\
       zlen (elems a') = zlen (elems a) /\ znth (elems a') i = Some x /\
       forall j, j <> i -> znth (elems a') j = znth (elems a) j) /\
  (0 <= i < zlen (elems a) -> conv v = None -> Set_ge conv a i v = Err).
Proof. exact Set_ge_spec. Qed.
Print Assumptions C04_store_mixed_int.
(* BoolArray, StringArray, FloatArray, ComplexArray and TimeArray: the same except exactly one past the end. *)
Theorem C04_store_bool_string_partial :
  forall (V A : Type) (conv : V -> option A) (a : arr A) i v, i <> zlen (elems a) ->
  (~ (0 <= i < zlen (elems a)) -> Set_gt conv a i v = Err) /\
  (0 <= i < zlen (elems a) -> forall x, conv v = Some x ->
     exists a', Set_gt conv a i v = Ok a' /\ dims a' = dims a /\
       zlen (elems a') = zlen (elems a) /\ znth (elems a') i = Some x /\
       forall j, j <> i -> znth (elems a') j = znth (elems a) j) /\
  (0 <= i < zlen (elems a) -> conv v = None -> Set_gt conv a i v = Err).
Proof. exact Set_gt_spec. Qed.
Print Assumptions C04_store_bool_string_partial.
(* Finding: one past the end panics for every one of these arrays and every
   storable value, instead of being rejected. *)
Theorem C04_store_past_end_refuted :
  forall (V A : Type) (conv : V -> option A) (a : arr A) v x,
  conv v = Some x -> Set_gt conv a (zlen (elems a)) v = Panic.
Proof. exact Set_gt_panics. Qed.
Print Assumptions C04_store_past_end_refuted.
Example C04_example :
  Set_ge (fun x : Z => Some x) (vec [1;2;3]) 1 9 = Ok (vec [1;9;3]) /\
  Set_ge (fun x : Z => Some x) (vec [1;2;3]) 3 9 = Err /\
  Set_gt (fun x : bool => Some x) (vec [true;false]) 2 true = Panic.
Proof. repeat split. Qed.

(* ------------------------------------------------------------------ C05 *)
Theorem C05_reverse :
  forall (A : Type) (a : arr A) axis n, wf a ->
  let k := norm_axis (zlen (dims a)) axis in
  znth (dims a) k = Some n ->
  exists r, reverse (Arr a) axis = Ok (Arr r) /\ wf r /\ dims r = dims a /\
    forall idx i, inb (dims a) idx -> znth idx k = Some i ->
      elem r idx = elem a (zupd idx k (n - 1 - i)).
Proof. intros A a axis n Hw k Hn. exact (reverse_ok a axis k n Hw eq_refl Hn). Qed.
Print Assumptions C05_reverse.
Theorem C05_reverse_involution :
  forall (A : Type) (a r : arr A) axis, wf a ->
  reverse (Arr a) axis = Ok (Arr r) -> reverse (Arr r) axis = Ok (Arr a).
Proof. intros A a r axis. exact (reverse_twice a axis r). Qed.
Print Assumptions C05_reverse_involution.
Theorem C05_reverse_axis_error :
  forall (A : Type) (a : arr A) axis,
  ~ (- zlen (dims a) <= axis < zlen (dims a)) -> reverse (Arr a) axis = Err.
Proof. intros A a axis H. exact (reverse_axis_err (Arr a) axis eq_refl H). Qed.
Print Assumptions C05_reverse_axis_error.
Theorem C05_reverse_scalar : forall (A : Type) (x : A) axis, reverse (Scal x) axis = Ok (Scal x).
Proof. reflexivity. Qed.
Example C05_example :
  reverse (Arr (mkArr [2;3] [1;2;3;4;5;6])) (-1) = Ok (Arr (mkArr [2;3] [3;2;1;6;5;4])).
Proof. reflexivity. Qed.

(* ------------------------------------------------------------------ C06 *)
(* the counts for which position + count is a machine integer at every position of v *)
Definition no_overflow {A} (n : Z) (v : list A) : Prop := - 2 ^ 63 <= n /\ n + zlen v <= 2 ^ 63.
Theorem C06_rotate_vector :
  forall (A : Type) n (v : list A) axis, no_overflow n v ->
  exists r, rotate (vec [n]) (Arr (vec v)) axis = Ok (Arr (vec r)) /\ zlen r = zlen v /\
    forall i, 0 <= i < zlen v -> znth r i = znth v ((i + n) mod zlen v).
Proof.
  intros A n v axis [W1 W2]. exists (rotl n v). split; [apply rotate_vec; assumption|]. split; [apply zlen_rotl|].
  intros i Hi. apply znth_rotl. exact Hi.
Qed.
Print Assumptions C06_rotate_vector.
Theorem C06_rotate_compose :
  forall (A : Type) n m (v r : list A) axis,
  no_overflow n v -> no_overflow m v -> no_overflow (n + m) v ->
  rotate (vec [n]) (Arr (vec v)) axis = Ok (Arr (vec r)) ->
  rotate (vec [m]) (Arr (vec r)) axis = rotate (vec [n + m]) (Arr (vec v)) axis.
Proof.
  intros A n m v r axis [W1 W2] [W3 W4] [W5 W6] H. rewrite rotate_vec in H by assumption. inversion H as [H1].
  rewrite !rotate_vec by (rewrite ?zlen_rotl; assumption).
  do 2 f_equal. rewrite rotl_rotl. f_equal.
Qed.
Print Assumptions C06_rotate_compose.
Theorem C06_rotate_multiple :
  forall (A : Type) k (v : list A) axis, no_overflow (k * zlen v) v ->
  rotate (vec [k * zlen v]) (Arr (vec v)) axis = Ok (Arr (vec v)).
Proof. intros A k v axis [W1 W2]. rewrite rotate_vec by assumption. rewrite rotl_multiple. reflexivity. Qed.
Print Assumptions C06_rotate_multiple.
Theorem C06_rotate_inverse :
  forall (A : Type) n (v r : list A) axis, no_overflow n v -> no_overflow (- n) v ->
  rotate (vec [n]) (Arr (vec v)) axis = Ok (Arr (vec r)) ->
  rotate (vec [- n]) (Arr (vec r)) axis = Ok (Arr (vec v)).
Proof.
  intros A n v r axis W1 W2 H.
  assert (W0 : no_overflow 0 v) by (unfold no_overflow in *; pose proof (zlen_nonneg v); lia).
  rewrite (C06_rotate_compose A n (- n) v r axis W1 W2) by (try exact H; replace (n + - n) with 0 by lia; exact W0).
  replace (n + - n) with (0 * zlen v) by lia. apply C06_rotate_multiple. exact W0.
Qed.
Print Assumptions C06_rotate_inverse.
Example C06_example : no_overflow (-7) [1;2;3;4;5] /\
  rotate (vec [-7]) (Arr (vec [1;2;3;4;5])) (-1) = Ok (Arr (vec [4;5;1;2;3])).
Proof. split; [split; vm_compute; discriminate|reflexivity]. Qed.
(* Finding: with a count so large that position + count leaves the machine integers the result is not
   a rotation: an element appears twice and another is lost.  2*63-1 is 1 modulo 3. *)
Theorem C06_overflow_is_no_rotation :
  rotate (vec [2 ^ 63 - 1]) (Arr (vec [1;2;3])) (-1) = Ok (Arr (vec [2;2;3])) /\ (2 ^ 63 - 1) mod 3 = 1 /\
  rotate (vec [1]) (Arr (vec [1;2;3])) (-1) = Ok (Arr (vec [2;3;1])).
Proof. repeat split; reflexivity. Qed.
Print Assumptions C06_overflow_is_no_rotation.

(* ------------------------------------------------------------------ C07 *)
(* Left argument of R's shape minus the axis.  When L is a vector, R is a
   matrix (that is what the shape equation says); the exclusion is for the
   single-element extension below. *)
Theorem C07_rotate_lines :
  forall (A : Type) (L : arr Z) (a : arr A) axis n,
  wf L -> wf a -> 2 <= zlen (dims a) ->
  let k := norm_axis (zlen (dims a)) axis in
  znth (dims a) k = Some n -> dims L = del k (dims a) ->
  Forall (fun c => - 2 ^ 63 <= c /\ c + n <= 2 ^ 63) (elems L) ->
  exists r, rotate L (Arr a) axis = Ok (Arr r) /\ wf r /\ dims r = dims a /\
    forall idx i c, inb (dims a) idx -> znth idx k = Some i -> elem L (del k idx) = Some c ->
      elem r idx = elem a (zupd idx k ((i + c) mod n)).
Proof.
  intros A L a axis n HL Ha Hrk k Hn Hd HW. apply (rotate_ok L a axis k n HL Ha Hrk eq_refl Hn Hd); [|exact HW].
  intros H1. pose proof (znth_some_range _ _ _ Hn). rewrite Hd, zlen_del in H1 by assumption. lia.
Qed.
Print Assumptions C07_rotate_lines.
(* Finding: the documented single-element extension does not work for R of rank
   2 or more (unless R happens to have the axis lengths 1). *)
Theorem C07_single_element_refuted :
  rotate (vec [1]) (Arr (mkArr [2;3] [1;2;3;4;5;6])) (-1) = Err /\
  rotate (vec [1]) (Arr (mkArr [2;2;2] [1;2;3;4;5;6;7;8])) (-1) = Err.
Proof. split; reflexivity. Qed.
Print Assumptions C07_single_element_refuted.
Example C07_example :
  rotate (vec [1;2]) (Arr (mkArr [2;3] [1;2;3;4;5;6])) (-1) = Ok (Arr (mkArr [2;3] [2;3;1;6;4;5])).
Proof. reflexivity. Qed.

(* ------------------------------------------------------------------ C08 *)
Theorem C08_monadic_transpose :
  forall (A : Type) origin (a : arr A), (origin = 0 \/ origin = 1) -> wf a ->
  exists r, fst (transpose origin None (Arr a)) = Ok (Arr r) /\ wf r /\ dims r = rev (dims a) /\
    forall idx, inb (rev (dims a)) idx -> inb (dims a) (rev idx) /\ elem r idx = elem a (rev idx).
Proof.
  intros A origin a Ho Hw. destruct (transpose_monadic origin a Ho Hw) as (r & E & H1 & H2 & H3).
  exists r. split; [exact E|]. split; [exact H1|]. split; [exact H2|]. rewrite <- H2. exact H3.
Qed.
Print Assumptions C08_monadic_transpose.
Theorem C08_transpose_involution :
  forall (A : Type) origin (a r : arr A), (origin = 0 \/ origin = 1) -> wf a ->
  fst (transpose origin None (Arr a)) = Ok (Arr r) -> fst (transpose origin None (Arr r)) = Ok (Arr a).
Proof. intros A. exact (@transpose_twice A). Qed.
Print Assumptions C08_transpose_involution.
(* Finding: ⍉ of the empty array panics (make with length ¯1). *)
Theorem C08_transpose_empty_panics :
  forall (A : Type) origin, fst (transpose origin None (@Emp A)) = Panic.
Proof. intros A origin. unfold transpose, transposeIndexes; cbn. destruct (origin =? 0); reflexivity. Qed.
Print Assumptions C08_transpose_empty_panics.
Example C08_example :
  fst (transpose 1 None (Arr (mkArr [2;3] [1;2;3;4;5;6]))) = Ok (Arr (mkArr [3;2] [1;4;2;5;3;6])).
Proof. reflexivity. Qed.

(* ------------------------------------------------------------------ C09 *)
(* [ints] is L counted from 1; it must be onto 1..m. *)
Theorem C09_dyadic_transpose :
  forall (A : Type) origin (l : list Z) (a : arr A) m, (origin = 0 \/ origin = 1) ->
  wf a -> zlen l = zlen (dims a) ->
  let ints := map (fun v => v - origin + 1) l in
  (forall v, In v ints <-> 1 <= v <= m) ->
  exists r, fst (transpose origin (Some (Arr (vec l))) (Arr a)) = Ok (Arr r) /\ wf r /\
    zlen (dims r) = m /\
    (* every result axis has the least length of the axes mapped to it *)
    (forall j, 0 <= j < m -> exists s, znth (dims r) j = Some s /\
       (forall k d, znth ints k = Some (j + 1) -> znth (dims a) k = Some d -> s <= d) /\
       (exists k, znth ints k = Some (j + 1) /\ znth (dims a) k = Some s)) /\
    (forall idx, inb (dims r) idx -> inb (dims a) (pick ints idx) /\ elem r idx = elem a (pick ints idx)).
Proof. exact transpose_dyadic. Qed.
Print Assumptions C09_dyadic_transpose.
Theorem C09_dyadic_transpose_rejects :
  forall (A : Type) origin (l : list Z) (a : arr A), (origin = 0 \/ origin = 1) ->
  let ints := map (fun v => v - origin + 1) l in
  (zlen l <> zlen (dims a) \/ (exists v, In v ints /\ v < 1) \/
   (exists v w, In v ints /\ 1 <= w < v /\ ~ In w ints)) ->
  fst (transpose origin (Some (Arr (vec l))) (Arr a)) = Err.
Proof. exact transpose_dyadic_rejects. Qed.
Print Assumptions C09_dyadic_transpose_rejects.
Example C09_example :
  fst (transpose 1 (Some (Arr (vec [1;1]))) (Arr (mkArr [2;3] [1;2;3;4;5;6]))) = Ok (Arr (vec [1;5])).
Proof. reflexivity. Qed.

(* ------------------------------------------------------------------ C10 *)
Theorem C10_take :
  forall (A : Type) (z iz : A) (l : list Z) (a : arr A) (x0 : list Z) (xo : option (list Z)) cs,
  wf a -> l <> [] -> zlen l <= zlen (dims a) ->
  (* explicit axes: distinct and inside the rank; or no axis argument *)
  NoDup x0 -> Forall (fun k => 0 <= k < zlen (dims a)) x0 ->
  (xo = Some x0 \/ (xo = None /\ x0 = [])) ->
  (* cs: the count of each axis; an axis without count keeps its length *)
  counts_for (x0 ++ missing_axes (zlen (dims a)) x0) l
    (fun k => match znth (dims a) k with Some d => d | None => 0 end) cs ->
  exists r, fst (take z iz (Arr (vec l)) (Arr a) xo) = Ok (Arr r) /\ wf r /\ dims r = map Z.abs cs /\
    forall idx, inb (map Z.abs cs) idx ->
      let src := shifted (dims a) cs idx in
      (inb (dims a) src -> elem r idx = elem a src) /\
      (~ inb (dims a) src -> elem r idx = Some z).
Proof. exact @take_ok. Qed.
Print Assumptions C10_take.
Theorem C10_take_vector :
  forall (A : Type) (z iz : A) n (v : list A), 0 <= n ->
  fst (take z iz (Arr (vec [n])) (Arr (vec v)) None) =
    Ok (Arr (vec (firstn (Z.to_nat n) v ++ repeat z (Z.to_nat (n - zlen v))))) /\
  (0 < n -> fst (take z iz (Arr (vec [- n])) (Arr (vec v)) None) =
    Ok (Arr (vec (repeat z (Z.to_nat (n - zlen v)) ++ skipn (Z.to_nat (zlen v - n)) v)))).
Proof. intros A z iz n v Hn. split; [apply take_vec_pos; exact Hn|]. intros H. apply take_vec_neg. exact H. Qed.
Print Assumptions C10_take_vector.
Example C10_example :
  fst (take 0 0 (Arr (vec [3;-2])) (Arr (mkArr [2;3] [1;2;3;4;5;6])) None) =
    Ok (Arr (mkArr [3;2] [2;3;5;6;0;0])) /\
  counts_for ([] ++ missing_axes 2 []) [3;-2] (fun _ => 0) [3;-2].
Proof.
  split; [reflexivity|]. split; [reflexivity|]. intros i k Hk.
  cbn in Hk. unfold znth in *. destruct (i <? 0); [discriminate|].
  destruct (Z.to_nat i) as [|[|[|n]]]; cbn in *; inversion Hk; reflexivity.
Qed.

(* ------------------------------------------------------------------ C11 *)
Theorem C11_drop :
  forall (A : Type) (z iz : A) (l : list Z) (a : arr A) (x0 : list Z) (xo : option (list Z)) cs,
  wf a -> l <> [] -> zlen l <= zlen (dims a) ->
  NoDup x0 -> Forall (fun k => 0 <= k < zlen (dims a)) x0 ->
  (xo = Some x0 \/ (xo = None /\ x0 = [])) ->
  counts_for (x0 ++ missing_axes (zlen (dims a)) x0) l (fun _ => 0) cs ->
  Forall (fun c => - 2 ^ 63 < c < 2 ^ 63) cs ->
  exists r, fst (drop z iz (Arr (vec l)) (Arr a) xo) = Ok (Arr r) /\ wf r /\
    dims r = remaining (dims a) cs /\
    forall idx, inb (remaining (dims a) cs) idx ->
      inb (dims a) (skipped cs idx) /\ elem r idx = elem a (skipped cs idx).
Proof. exact @drop_ok. Qed.
Print Assumptions C11_drop.
Theorem C11_take_drop_join :
  forall (A : Type) (z iz : A) n (v t d : list A) origin, 0 <= n <= zlen v -> n < 2 ^ 63 ->
  fst (take z iz (Arr (vec [n])) (Arr (vec v)) None) = Ok (Arr (vec t)) ->
  fst (drop z iz (Arr (vec [n])) (Arr (vec v)) None) = Ok (Arr (vec d)) ->
  catenate origin (Arr (vec t)) (Arr (vec d)) AxNone = Ok (Arr (vec v)).
Proof.
  intros A z iz n v t d origin Hn HW Ht Hd. rewrite take_vec_pos in Ht by lia. rewrite drop_vec in Hd by lia.
  replace (0 <=? n) with true in Hd by lia. replace (Z.to_nat (n - zlen v)) with O in Ht by lia.
  cbn [repeat] in Ht. rewrite app_nil_r in Ht.
  assert (Et : t = firstn (Z.to_nat n) v) by (inversion Ht; reflexivity).
  assert (Ed : d = skipn (Z.to_nat n) v) by (inversion Hd; reflexivity).
  rewrite catenate_vec, Et, Ed, firstn_skipn. reflexivity.
Qed.
Print Assumptions C11_take_drop_join.
Example C11_example :
  fst (drop 0 0 (Arr (vec [1;-1])) (Arr (mkArr [2;3] [1;2;3;4;5;6])) None) = Ok (Arr (mkArr [1;2] [4;5])) /\
  fst (drop 0 0 (Arr (vec [5])) (Arr (vec [1;2;3])) None) = Ok (Arr (mkArr [0] [])).
Proof. split; reflexivity. Qed.

(* Finding: the smallest integer has no negation.  Dropping it from the end is a take of zlen v - 2*63
   elements, more than any memory holds, instead of an empty result. *)
Theorem C11_smallest_count_takes :
  forall (A : Type) (z iz : A) (v : list A), 0 < zlen v < 2 ^ 63 ->
  fst (drop z iz (Arr (vec [- 2 ^ 63])) (Arr (vec v)) None) = fst (take z iz (Arr (vec [zlen v - 2 ^ 63])) (Arr (vec v)) None).
Proof.
  intros A z iz v H. unfold drop, take.
  assert (L1 : zlen [- 2 ^ 63] <= zlen (dims (vec v))) by (cbn; lia).
  assert (L2 : zlen [zlen v - 2 ^ 63] <= zlen (dims (vec v))) by (cbn; lia).
  rewrite (takedrop_unfold z iz false [- 2 ^ 63] (vec v) [] ltac:(discriminate) L1 (NoDup_nil _) (Forall_nil _) None (or_intror (Logic.conj eq_refl eq_refl))).
  rewrite (takedrop_unfold z iz true [zlen v - 2 ^ 63] (vec v) [] ltac:(discriminate) L2 (NoDup_nil _) (Forall_nil _) None (or_intror (Logic.conj eq_refl eq_refl))).
  cbn [fst]. do 2 f_equal. unfold final_counts, padded. change ([] ++ missing_axes (zlen (dims (vec v))) []) with [0].
  cbn [length skipn map app combine fst snd]. unfold drop_to_take. change (wrap64 (- - 2 ^ 63)) with (- 2 ^ 63).
  change (znth (dims (vec v)) 0) with (Some (zlen v)). cbv iota.
  replace ((zlen v <=? - 2 ^ 63) || (zlen v <=? - 2 ^ 63)) with false by lia. change (0 <? - 2 ^ 63) with false. cbv iota.
  f_equal. lia.
Qed.
Print Assumptions C11_smallest_count_takes.

(* ------------------------------------------------------------------ C12 *)
(* What take, drop and transpose leave in the caller's left argument. *)
Theorem C12_take_full_length_keeps_left_partial :
  forall (A : Type) (z iz : A) (l : list Z) (a : arr A) xo,
  zlen l = zlen (dims a) ->
  snd (take z iz (Arr (vec l)) (Arr a) xo) = Arr (vec l).
Proof. exact take_keeps_left. Qed.
Print Assumptions C12_take_full_length_keeps_left_partial.
Theorem C12_transpose_origin1_keeps_left_partial :
  forall (A : Type) (L : option (val Z)) (R : val A), snd (transpose 1 L R) = L.
Proof. exact transpose_keeps_left. Qed.
Print Assumptions C12_transpose_origin1_keeps_left_partial.
(* Findings.  V←1 2 ⋄ V↑2 3 4⍴..: V afterwards claims shape 3 with 2 elements;
   V←1 1 ⋄ V↓M: V's elements are overwritten; with ⎕IO 0, V⍉M adds one to V. *)
Theorem C12_arguments_modified_refuted :
  (exists R : arr Z, snd (take 0 0 (Arr (vec [1;2])) (Arr R) None) = Arr (mkArr [3] [1;2]) /\ wf R) /\
  (exists R : arr Z, snd (drop 0 0 (Arr (vec [1;1])) (Arr R) None) = Arr (vec [-1;-2]) /\ wf R) /\
  (exists R : arr Z, snd (transpose 0 (Some (Arr (vec [1;0]))) (Arr R)) = Some (Arr (vec [2;1])) /\ wf R).
Proof.
  split; [|split].
  - exists (mkArr [1;2;1] [1;2]). split; [reflexivity|]. split; [discriminate|]. split; [repeat constructor; discriminate|reflexivity].
  - exists (mkArr [2;3] [1;2;3;4;5;6]). split; [reflexivity|]. split; [discriminate|]. split; [repeat constructor; discriminate|reflexivity].
  - exists (mkArr [2;3] [1;2;3;4;5;6]). split; [reflexivity|]. split; [discriminate|]. split; [repeat constructor; discriminate|reflexivity].
Qed.
Print Assumptions C12_arguments_modified_refuted.

(* ------------------------------------------------------------------ C13 *)
(* The join axis x (counted from 0): the last one without an axis argument. *)
Theorem C13_catenate :
  forall (A : Type) origin (L R : arr A) ax x l r,
  wf L -> wf R -> size (dims L) <> 0 -> size (dims R) <> 0 ->
  (ax = AxNone /\ x = zlen (dims R) - 1 \/ ax = AxInt (x + origin)) ->
  agree_but x (dims L) (dims R) -> znth (dims L) x = Some l -> znth (dims R) x = Some r ->
  exists res, catenate origin (Arr L) (Arr R) ax = Ok (Arr res) /\ wf res /\
    dims res = zupd (dims L) x (l + r) /\
    forall idx i, inb (zupd (dims L) x (l + r)) idx -> znth idx x = Some i ->
      (i < l -> elem res idx = elem L idx) /\
      (l <= i -> elem res idx = elem R (zupd idx x (i - l))).
Proof. exact @catenate_same_rank_ok. Qed.
Print Assumptions C13_catenate.
Theorem C13_catenate_shape_error :
  forall (A : Type) origin (L R : arr A) ax x,
  wf L -> wf R -> size (dims L) <> 0 -> size (dims R) <> 0 ->
  (ax = AxNone /\ x = zlen (dims R) - 1 \/ ax = AxInt (x + origin) /\ 0 <= x < zlen (dims L)) ->
  zlen (dims L) = zlen (dims R) -> ~ agree_but x (dims L) (dims R) ->
  catenate origin (Arr L) (Arr R) ax = Err.
Proof. exact @catenate_mismatch_err. Qed.
Print Assumptions C13_catenate_shape_error.
Theorem C13_catenate_axis_error :
  forall (A : Type) origin (L R : arr A) n,
  ~ (0 <= n - origin < Z.max (zlen (dims L)) (zlen (dims R))) ->
  catenate origin (Arr L) (Arr R) (AxInt n) = Err.
Proof. intros A origin L R n H. exact (splitCatAxis_err origin (Arr L) (Arr R) n H). Qed.
Print Assumptions C13_catenate_axis_error.
Theorem C13_catenate_vectors :
  forall (A : Type) origin (l r : list A),
  catenate origin (Arr (vec l)) (Arr (vec r)) AxNone = Ok (Arr (vec (l ++ r))).
Proof. intros A. exact (@catenate_vec A). Qed.
Print Assumptions C13_catenate_vectors.
Theorem C13_catenate_empty :
  forall (A : Type) origin (R : val A),
  catenate origin Emp R AxNone = Ok R /\
  (sizeOf R <> 0 -> catenate origin R Emp AxNone = Ok R).
Proof.
  intros A origin R. split.
  - apply (catenate_empty_left origin Emp R AxNone (match R with Scal _ => 0 | _ => zlen (shapeOf R) - 1 end));
      [reflexivity|reflexivity|]. destruct R; reflexivity.
  - intros H. eapply catenate_empty_right; [reflexivity|reflexivity|exact H|]. cbn. reflexivity.
Qed.
Print Assumptions C13_catenate_empty.
Example C13_example :
  catenate 1 (Arr (mkArr [2;1] [1;2])) (Arr (mkArr [2;2] [3;4;5;6])) (AxInt 2) =
    Ok (Arr (mkArr [2;3] [1;3;4;2;5;6])) /\ agree_but 1 [2;1] [2;2].
Proof.
  split; [reflexivity|]. split; [reflexivity|]. intros j Hj. unfold znth.
  destruct (j <? 0) eqn:E; [reflexivity|]. destruct (Z.to_nat j) as [|[|n]] eqn:En; [reflexivity|lia|reflexivity].
Qed.

(* ------------------------------------------------------------------ C14 *)
(* rank(L) = rank(R) - 1, on any join axis (default: the last of R) *)
Theorem C14_catenate_lower_left :
  forall (A : Type) origin (L R : arr A) ax x r,
  wf L -> wf R -> size (dims L) <> 0 -> size (dims R) <> 0 ->
  (ax = AxNone /\ x = zlen (dims R) - 1 \/ ax = AxInt (x + origin)) ->
  zlen (dims R) = zlen (dims L) + 1 -> znth (dims R) x = Some r -> dims L = del x (dims R) ->
  exists res, catenate origin (Arr L) (Arr R) ax = Ok (Arr res) /\ wf res /\
    dims res = zupd (dims R) x (1 + r) /\
    forall idx i, inb (zupd (dims R) x (1 + r)) idx -> znth idx x = Some i ->
      (i = 0 -> elem res idx = elem L (del x idx)) /\
      (1 <= i -> elem res idx = elem R (zupd idx x (i - 1))).
Proof. exact @catenate_lower_left_ok. Qed.
Print Assumptions C14_catenate_lower_left.
(* rank(R) = rank(L) - 1: only with an explicit axis (see the refutation) *)
Theorem C14_catenate_lower_right_partial :
  forall (A : Type) origin (L R : arr A) x l,
  wf L -> wf R -> size (dims L) <> 0 -> size (dims R) <> 0 ->
  zlen (dims L) = zlen (dims R) + 1 -> znth (dims L) x = Some l -> dims R = del x (dims L) ->
  exists res, catenate origin (Arr L) (Arr R) (AxInt (x + origin)) = Ok (Arr res) /\ wf res /\
    dims res = zupd (dims L) x (l + 1) /\
    forall idx i, inb (zupd (dims L) x (l + 1)) idx -> znth idx x = Some i ->
      (i < l -> elem res idx = elem L idx) /\
      (i = l -> elem res idx = elem R (del x idx)).
Proof. exact @catenate_lower_right_ok. Qed.
Print Assumptions C14_catenate_lower_right_partial.
Theorem C14_catenate_scalar_left :
  forall (A : Type) origin (s : A) (R : arr A) ax x r,
  wf R -> size (dims R) <> 0 -> (ax = AxNone /\ x = zlen (dims R) - 1 \/ ax = AxInt (x + origin)) ->
  znth (dims R) x = Some r ->
  exists res, catenate origin (Scal s) (Arr R) ax = Ok (Arr res) /\ wf res /\
    dims res = zupd (dims R) x (1 + r) /\
    forall idx i, inb (zupd (dims R) x (1 + r)) idx -> znth idx x = Some i ->
      (i = 0 -> elem res idx = Some s) /\
      (1 <= i -> elem res idx = elem R (zupd idx x (i - 1))).
Proof. exact @catenate_scalar_left_ok. Qed.
Print Assumptions C14_catenate_scalar_left.
Theorem C14_catenate_scalar_right_partial :
  forall (A : Type) origin (s : A) (L : arr A) x l,
  wf L -> size (dims L) <> 0 -> znth (dims L) x = Some l ->
  exists res, catenate origin (Arr L) (Scal s) (AxInt (x + origin)) = Ok (Arr res) /\ wf res /\
    dims res = zupd (dims L) x (l + 1) /\
    forall idx i, inb (zupd (dims L) x (l + 1)) idx -> znth idx x = Some i ->
      (i < l -> elem res idx = elem L idx) /\
      (i = l -> elem res idx = Some s).
Proof. exact @catenate_scalar_right_ok. Qed.
Print Assumptions C14_catenate_scalar_right_partial.
Theorem C14_rank_difference_error_partial :
  forall (A : Type) origin (L R : arr A) ax x,
  wf L -> wf R -> size (dims L) <> 0 -> size (dims R) <> 0 ->
  (ax = AxNone /\ x = zlen (dims R) - 1 \/ ax = AxInt (x + origin) /\ 0 <= x < Z.max (zlen (dims L)) (zlen (dims R))) ->
  zlen (dims L) + 2 <= zlen (dims R) \/ zlen (dims R) + 3 <= zlen (dims L) ->
  catenate origin (Arr L) (Arr R) ax = Err.
Proof. exact @catenate_rank_err_ok. Qed.
Print Assumptions C14_rank_difference_error_partial.
(* Findings: without an axis argument the axis is that of R, so (2 2⍴..),0 and
   (2 2⍴..),V join along the first axis; a left argument whose rank is two
   higher panics. *)
Theorem C14_default_axis_refuted :
  catenate 1 (Arr (mkArr [2;2] [1;2;3;4])) (Scal 0) AxNone = Ok (Arr (mkArr [3;2] [1;2;3;4;0;0])) /\
  catenate 1 (Arr (mkArr [2;2] [1;2;3;4])) (Arr (vec [8;9])) AxNone = Ok (Arr (mkArr [3;2] [1;2;3;4;8;9])) /\
  catenate 1 (Arr (mkArr [2;2;2] [1;2;3;4;5;6;7;8])) (Arr (vec [8;9])) AxNone = Panic.
Proof. split; [reflexivity|]. split; reflexivity. Qed.
Print Assumptions C14_default_axis_refuted.
Example C14_example :
  catenate 1 (Arr (vec [8;9])) (Arr (mkArr [2;2] [1;2;3;4])) AxNone = Ok (Arr (mkArr [2;3] [8;1;2;9;3;4])).
Proof. reflexivity. Qed.

(* ------------------------------------------------------------------ C15 *)
(* f is the integer part of the fractional axis; the new axis is x *)
Theorem C15_laminate :
  forall (A : Type) origin (L R : arr A) f,
  wf L -> wf R -> dims L = dims R ->
  let x := f - origin + 1 in 0 <= x <= zlen (dims L) ->
  exists res, catenate origin (Arr L) (Arr R) (AxFrac f) = Ok (Arr res) /\ wf res /\
    zlen (dims res) = zlen (dims L) + 1 /\ znth (dims res) x = Some 2 /\ del x (dims res) = dims L /\
    forall idx, inb (dims res) idx -> inb (dims L) (del x idx) /\
      (znth idx x = Some 0 -> elem res idx = elem L (del x idx)) /\
      (znth idx x = Some 1 -> elem res idx = elem R (del x idx)).
Proof. exact @laminate_by_axis. Qed.
Print Assumptions C15_laminate.
Theorem C15_laminate_scalar :
  forall (A : Type) origin (s : A) (R : arr A) f, wf R ->
  let x := f - origin + 1 in 0 <= x <= zlen (dims R) ->
  exists res, catenate origin (Scal s) (Arr R) (AxFrac f) = Ok (Arr res) /\ wf res /\
    zlen (dims res) = zlen (dims R) + 1 /\ znth (dims res) x = Some 2 /\ del x (dims res) = dims R /\
    forall idx, inb (dims res) idx -> inb (dims R) (del x idx) /\
      (znth idx x = Some 0 -> elem res idx = Some s) /\
      (znth idx x = Some 1 -> elem res idx = elem R (del x idx)).
Proof. exact @laminate_scalar_by_axis. Qed.
Print Assumptions C15_laminate_scalar.
Theorem C15_laminate_shape_error :
  forall (A : Type) origin (L R : arr A) f, dims L <> dims R ->
  catenate origin (Arr L) (Arr R) (AxFrac f) = Err.
Proof. exact @laminate_mismatch. Qed.
Print Assumptions C15_laminate_shape_error.
(* Finding: the largest accepted fractional axis (rank+1+0.5) panics. *)
Theorem C15_laminate_axis_panics :
  forall (A : Type) origin (L R : arr A),
  dims L = dims R -> catenate origin (Arr L) (Arr R) (AxFrac (zlen (dims L) + origin)) = Panic.
Proof. exact @laminate_axis_panic. Qed.
Print Assumptions C15_laminate_axis_panics.
Example C15_example :
  catenate 1 (Arr (vec [1;2])) (Arr (vec [3;4])) (AxFrac 0) = Ok (Arr (mkArr [2;2] [1;2;3;4])) /\
  catenate 1 (Arr (vec [1;2])) (Arr (vec [3;4])) (AxFrac 1) = Ok (Arr (mkArr [2;2] [1;3;2;4])).
Proof. split; reflexivity. Qed.

(* ------------------------------------------------------------------ C16 *)
Theorem C16_ravel_row_major :
  forall (A : Type) (a : arr A), wf a ->
  ravel (Arr a) = Arr (vec (elems a)) /\
  map Some (elems a) = map (elem a) (all_idx (dims a)).
Proof. exact @ravel_row_major. Qed.
Print Assumptions C16_ravel_row_major.
Theorem C16_ravel_merges_axes :
  forall (A : Type) (z : A) (a : arr A) pre mid post,
  wf a -> size (dims a) <> 0 ->
  dims a = pre ++ mid ++ post -> (2 <= length mid)%nat ->
  ravelAxes z (Arr a) (map (fun i => zlen pre + i) (zseq (zlen mid))) =
    Ok (Arr (mkArr (pre ++ [size mid] ++ post) (elems a))).
Proof. intros A z a pre mid post H1 H2 H3 H4. apply ravelAxes_ok; auto. Qed.
Print Assumptions C16_ravel_merges_axes.
Example C16_example :
  ravelAxes 0 (Arr (mkArr [2;2;2] [1;2;3;4;5;6;7;8])) [1;2] = Ok (Arr (mkArr [2;4] [1;2;3;4;5;6;7;8])).
Proof. reflexivity. Qed.
