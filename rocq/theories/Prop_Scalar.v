(* Prop_Scalar.v -- scalar functions on arrays (C45), their axis form (C46) and
   the compact array representations (C53). *)
From Coq Require Import String Permutation.
From Verif Require Import Base M_Array S_Array P_Array M_Structural M_Number S_Number P_Number P_Tower S_Operators M_Scalar P_Scalar P_ScalarArr.
Open Scope Z_scope.

Section C45.
  Context {P : Type} (M : methods P) (t : tower P) (has_uniform : ntype -> bool).
  Local Notation sv := (sval P).
  Local Notation F1 := (scalar1 M t has_uniform).
  Local Notation F2 := (scalar2 M t has_uniform).

  (* the user sees the array with axes ds and the value g idx at each index *)
  Definition yields (o : outcome (sres P)) (ds : list Z) (g : list Z -> sv) : Prop :=
    exists r, o = Ok (ResA r) /\ is_array ds (fun idx => Some (g idx)) (view r).

  Theorem C45_monadic (f : sv -> outcome sv) (a : arr sv) (g : list Z -> sv) : wf a ->
    (forall idx, inb (dims a) idx -> exists x, elem a idx = Some x /\ f x = Ok (g idx)) ->
    yields (F1 f (Arr a)) (dims a) g.
  Proof. intros W H. destruct (array1_ok M t has_uniform f a g W H) as (r & E & V). exists r. cbn. rewrite E. split; [reflexivity|exact V]. Qed.
  Theorem C45_monadic_error (f : sv -> outcome sv) (a : arr sv) : wf a ->
    (forall x, In x (elems a) -> f x <> Panic) -> (exists x, In x (elems a) /\ f x = Err) -> F1 f (Arr a) = Err.
  Proof. intros W H1 H2. cbn. rewrite (array1_err M t has_uniform f a W H1 H2). reflexivity. Qed.

  Theorem C45_scalars (f : sv -> sv -> outcome sv) x y : F2 f (Scal x) (Scal y) = omap ResS (f x y).
  Proof. reflexivity. Qed.

  Lemma szn (a : arr sv) : wf a -> size (dims a) <> 0 -> (sizeOf (Arr a) =? 0) = false.
  Proof. intros (_ & _ & W) H. apply Z.eqb_neq. unfold sizeOf. cbn [elemsOf]. lia. Qed.

  (* arrays of equal shape: element by element *)
  Theorem C45_equal_shapes (f : sv -> sv -> outcome sv) (a b : arr sv) (g : list Z -> sv) :
    wf a -> wf b -> dims a = dims b -> size (dims a) <> 0 ->
    (forall idx, inb (dims a) idx -> exists x y, elem a idx = Some x /\ elem b idx = Some y /\ f x y = Ok (g idx)) ->
    yields (F2 f (Arr a) (Arr b)) (dims a) g.
  Proof.
    intros Wa Wb Hd Hs H. unfold scalar2, arrays_to. rewrite (szn a) by assumption. rewrite (szn b) by (try assumption; congruence).
    replace (leqb (shapeOf (Arr a)) (shapeOf (Arr b))) with true by (symmetry; apply leqb_eq; exact Hd). cbn [obind].
    destruct (array2_ok M t has_uniform f (Arr a) (Arr b) (dims a) g) as (r & E & V); try (cbn; auto; fail); try apply Wa.
    exists r. rewrite E. split; [reflexivity|exact V].
  Qed.
  (* a scalar is extended to the shape of the other argument *)
  Theorem C45_scalar_left (f : sv -> sv -> outcome sv) x (b : arr sv) (g : list Z -> sv) : wf b ->
    (forall idx, inb (dims b) idx -> exists y, elem b idx = Some y /\ f x y = Ok (g idx)) ->
    yields (F2 f (Scal x) (Arr b)) (dims b) g.
  Proof.
    intros Wb H. destruct (array2_ok M t has_uniform f (Scal x) (Arr b) (dims b) g) as (r & E & V); try (cbn; auto; fail); try apply Wb.
    { intros idx Hi. destruct (H idx Hi) as (y & E & Ef). exists x, y. repeat split; assumption. }
    exists r. cbn [scalar2 arrays_to obind]. rewrite E. split; [reflexivity|exact V].
  Qed.
  Theorem C45_scalar_right (f : sv -> sv -> outcome sv) (a : arr sv) y (g : list Z -> sv) : wf a ->
    (forall idx, inb (dims a) idx -> exists x, elem a idx = Some x /\ f x y = Ok (g idx)) ->
    yields (F2 f (Arr a) (Scal y)) (dims a) g.
  Proof.
    intros Wa H. destruct (array2_ok M t has_uniform f (Arr a) (Scal y) (dims a) g) as (r & E & V); try (cbn; auto; fail); try apply Wa.
    { intros idx Hi. destruct (H idx Hi) as (x & E & Ef). exists x, y. repeat split; assumption. }
    exists r. cbn [scalar2 arrays_to obind]. rewrite E. split; [reflexivity|exact V].
  Qed.
  (* so is an array with one element *)
  Theorem C45_one_element_left (f : sv -> sv -> outcome sv) x (a b : arr sv) (g : list Z -> sv) :
    elems a = [x] -> wf b -> dims a <> dims b -> size (dims b) <> 0 ->
    (forall idx, inb (dims b) idx -> exists y, elem b idx = Some y /\ f x y = Ok (g idx)) ->
    yields (F2 f (Arr a) (Arr b)) (dims b) g.
  Proof.
    intros Ha Wb Hd Hs H. destruct (C45_scalar_left f x b g Wb H) as (r & E & V). exists r. split; [|exact V].
    rewrite <- E. unfold scalar2, arrays_to. unfold sizeOf at 1. cbn [elemsOf]. rewrite Ha. cbn [zlen length Z.of_nat]. change (Z.pos (Pos.of_succ_nat 0) =? 0) with false. cbv iota.
    rewrite (szn b) by assumption.
    destruct (leqb (shapeOf (Arr a)) (shapeOf (Arr b))) eqn:El; [apply leqb_eq in El; cbn in El; congruence|].
    unfold sizeOf at 1. cbn [elemsOf asArr]. rewrite Ha. change (zlen [x] =? 1) with true. cbv iota. unfold At. rewrite Ha. reflexivity.
  Qed.
  Theorem C45_one_element_right (f : sv -> sv -> outcome sv) y (a b : arr sv) (g : list Z -> sv) :
    elems b = [y] -> wf a -> dims a <> dims b -> size (dims a) <> 0 -> size (dims a) <> 1 ->
    (forall idx, inb (dims a) idx -> exists x, elem a idx = Some x /\ f x y = Ok (g idx)) ->
    yields (F2 f (Arr a) (Arr b)) (dims a) g.
  Proof.
    intros Hb Wa Hd Hs Hs1 H. destruct (C45_scalar_right f a y g Wa H) as (r & E & V). exists r. split; [|exact V].
    rewrite <- E. unfold scalar2, arrays_to. rewrite (szn a) by assumption. unfold sizeOf at 1. cbn [elemsOf]. rewrite Hb. change (zlen [y] =? 0) with false. cbv iota.
    destruct (leqb (shapeOf (Arr a)) (shapeOf (Arr b))) eqn:El; [apply leqb_eq in El; cbn in El; congruence|].
    replace (sizeOf (Arr a) =? 1) with false by (symmetry; apply Z.eqb_neq; unfold sizeOf; cbn [elemsOf]; destruct Wa as (_ & _ & W); lia).
    unfold sizeOf. cbn [elemsOf asArr]. rewrite Hb. change (zlen [y] =? 1) with true. cbv iota. unfold At. rewrite Hb. reflexivity.
  Qed.
  (* other shapes do not go together *)
  Theorem C45_different_shapes (f : sv -> sv -> outcome sv) (a b : arr sv) :
    wf a -> wf b -> dims a <> dims b ->
    size (dims a) <> 0 -> size (dims a) <> 1 -> size (dims b) <> 0 -> size (dims b) <> 1 -> F2 f (Arr a) (Arr b) = Err.
  Proof.
    intros Wa Wb Hd A0 A1 B0 B1. unfold scalar2, arrays_to. rewrite (szn a), (szn b) by assumption.
    destruct (leqb (shapeOf (Arr a)) (shapeOf (Arr b))) eqn:El; [apply leqb_eq in El; cbn in El; congruence|].
    replace (sizeOf (Arr a) =? 1) with false by (symmetry; apply Z.eqb_neq; unfold sizeOf; cbn [elemsOf]; destruct Wa as (_ & _ & W); lia).
    replace (sizeOf (Arr b) =? 1) with false by (symmetry; apply Z.eqb_neq; unfold sizeOf; cbn [elemsOf]; destruct Wb as (_ & _ & W); lia).
    reflexivity.
  Qed.
  (* an array without elements goes with every array, and gives the empty array *)
  Theorem C45_no_elements (f : sv -> sv -> outcome sv) (a b : arr sv) :
    wf a -> wf b -> size (dims a) = 0 \/ size (dims b) = 0 -> F2 f (Arr a) (Arr b) = Ok (ResA REmpty).
  Proof.
    intros (_ & _ & Wa) (_ & _ & Wb) H. unfold scalar2, arrays_to. unfold sizeOf. cbn [elemsOf].
    destruct (Z.eqb_spec (zlen (elems a)) 0); [reflexivity|]. destruct (Z.eqb_spec (zlen (elems b)) 0); [reflexivity|lia].
  Qed.
  (* one pair of elements outside the domain of the function makes an error *)
  Theorem C45_element_error (f : sv -> sv -> outcome sv) (a b : arr sv) idx x y :
    wf a -> wf b -> dims a = dims b -> (forall u v, f u v <> Panic) ->
    inb (dims a) idx -> elem a idx = Some x -> elem b idx = Some y -> f x y = Err ->
    F2 f (Arr a) (Arr b) = Err.
  Proof.
    intros Wa Wb Hd Hp Hi Hx Hy Hf. assert (Hs : size (dims a) <> 0) by (pose proof (pos_range _ _ Hi); lia).
    unfold scalar2, arrays_to. rewrite (szn a), (szn b) by (try assumption; congruence).
    replace (leqb (shapeOf (Arr a)) (shapeOf (Arr b))) with true by (symmetry; apply leqb_eq; exact Hd). cbn [obind].
    rewrite (array2_err M t has_uniform f (Arr a) (Arr b) (dims a)); try (cbn; auto; fail); try apply Wa.
    exists idx, x, y. repeat split; assumption.
  Qed.
  Theorem C45_element_error_scalar_left (f : sv -> sv -> outcome sv) x (b : arr sv) idx y :
    wf b -> (forall u v, f u v <> Panic) -> inb (dims b) idx -> elem b idx = Some y -> f x y = Err -> F2 f (Scal x) (Arr b) = Err.
  Proof.
    intros Wb Hp Hi Hy Hf. cbn [scalar2 arrays_to obind].
    rewrite (array2_err M t has_uniform f (Scal x) (Arr b) (dims b)); try (cbn; auto; fail); try apply Wb.
    exists idx, x, y. repeat split; assumption.
  Qed.
  Theorem C45_element_error_scalar_right (f : sv -> sv -> outcome sv) (a : arr sv) idx x y :
    wf a -> (forall u v, f u v <> Panic) -> inb (dims a) idx -> elem a idx = Some x -> f x y = Err -> F2 f (Arr a) (Scal y) = Err.
  Proof.
    intros Wa Hp Hi Hx Hf. cbn [scalar2 arrays_to obind].
    rewrite (array2_err M t has_uniform f (Arr a) (Scal y) (dims a)); try (cbn; auto; fail); try apply Wa.
    exists idx, x, y. repeat split; assumption.
  Qed.
End C45.
Print Assumptions C45_equal_shapes.
Print Assumptions C45_different_shapes.

(* ---- C46 ---- *)
(* X names the axes xs (counted from 0, ascending) in some order *)
Definition names_axes (origin : Z) (X xs : list Z) : Prop := increasing xs /\ Permutation (map (fun n => n + origin) xs) X.
(* the axes xs of an array with axes hi have the lengths lo *)
Definition axes_match (hi xs lo : list Z) : Prop := Forall2 (fun n d => znth hi n = Some d) xs lo.
(* c is the index idx restricted to the axes xs *)
Definition restricts (idx xs c : list Z) : Prop := Forall2 (fun n i => znth idx n = Some i) xs c.

Section C46.
  Context {P : Type} (M : methods P) (t : tower P) (has_uniform : ntype -> bool) (origin : Z).
  Local Notation sv := (sval P).
  Local Notation FX := (arrayAxis M t has_uniform origin).
  Definition rep_is (o : outcome (rep P)) (ds : list Z) (g : list Z -> sv) : Prop :=
    exists r, o = Ok r /\ is_array ds (fun idx => Some (g idx)) (view r).

  Lemma axis_len (hi lo : arr sv) xs : axes_match (dims hi) xs (dims lo) -> zlen (dims lo) = zlen xs /\ (zlen (dims lo) =? zlen xs) = true.
  Proof. intros H. assert (zlen (dims lo) = zlen xs) by (unfold zlen; apply Forall2_length in H; congruence). split; [assumption|]. apply Z.eqb_eq. assumption. Qed.
  Lemma axok (hi lo : arr sv) xs : increasing xs -> axes_match (dims hi) xs (dims lo) -> axis_ok (dims hi) None xs (dims lo) = true.
  Proof. intros H1 H2. apply axis_ok_true; [eapply Forall2_length; exact H2|exact H1|exact I|exact H2]. Qed.

  (* the argument of lower rank is repeated along the axes that X does not name:
     at idx it takes part with its element at the coordinates of idx on X *)
  Theorem C46_lower_left (f : sv -> sv -> outcome sv) (lo hi : arr sv) X xs (g : list Z -> sv) :
    wf lo -> wf hi -> zlen (dims lo) < zlen (dims hi) -> names_axes origin X xs -> axes_match (dims hi) xs (dims lo) ->
    (forall idx c, inb (dims hi) idx -> restricts idx xs c ->
       exists l h, elem lo c = Some l /\ elem hi idx = Some h /\ f l h = Ok (g idx)) ->
    rep_is (FX f (Arr lo) (Arr hi) (vec X)) (dims hi) g.
  Proof.
    intros Wl Wh Hr (Hi & Hp) Hm H. unfold rep_is, arrayAxis. cbn [asArr vec dims elems].
    destruct (Z.ltb_spec (zlen (dims lo)) (zlen (dims hi))) as [_|]; [|lia]. cbv zeta. change (zlen [zlen X] =? 1) with true. cbn [negb].
    rewrite (sorted_axes origin X xs Hi Hp). destruct (axis_len hi lo xs Hm) as (_ & ->). cbn [negb]. rewrite (axok hi lo xs Hi Hm). cbn [negb].
    apply (axis_core M t has_uniform (fun h l => f l h) hi lo xs g Wh Wl Hi Hm).
    intros idx c Hb Hc. destruct (H idx c Hb Hc) as (l & h & E1 & E2 & E3). exists h, l. repeat split; assumption.
  Qed.
  Theorem C46_lower_right (f : sv -> sv -> outcome sv) (hi lo : arr sv) X xs (g : list Z -> sv) :
    wf lo -> wf hi -> zlen (dims lo) <= zlen (dims hi) -> names_axes origin X xs -> axes_match (dims hi) xs (dims lo) ->
    (forall idx c, inb (dims hi) idx -> restricts idx xs c ->
       exists h l, elem hi idx = Some h /\ elem lo c = Some l /\ f h l = Ok (g idx)) ->
    rep_is (FX f (Arr hi) (Arr lo) (vec X)) (dims hi) g.
  Proof.
    intros Wl Wh Hr (Hi & Hp) Hm H. unfold rep_is, arrayAxis. cbn [asArr vec dims elems].
    destruct (Z.ltb_spec (zlen (dims hi)) (zlen (dims lo))) as [|_]; [lia|]. cbv zeta. change (zlen [zlen X] =? 1) with true. cbn [negb].
    rewrite (sorted_axes origin X xs Hi Hp). destruct (axis_len hi lo xs Hm) as (_ & ->). cbn [negb]. rewrite (axok hi lo xs Hi Hm). cbn [negb].
    apply (axis_core M t has_uniform f hi lo xs g Wh Wl Hi Hm H).
  Qed.
  (* any other axis list is an error *)
  Theorem C46_bad_axis_left (f : sv -> sv -> outcome sv) (lo hi : arr sv) (X : arr Z) :
    zlen (dims lo) < zlen (dims hi) ->
    (zlen (dims X) <> 1 \/ forall xs, ~ (names_axes origin (elems X) xs /\ axes_match (dims hi) xs (dims lo))) ->
    FX f (Arr lo) (Arr hi) X = Err.
  Proof.
    intros Hr Hn. unfold arrayAxis. cbn [asArr].
    destruct (Z.ltb_spec (zlen (dims lo)) (zlen (dims hi))) as [_|]; [|lia]. cbv zeta.
    destruct (Z.eqb_spec (zlen (dims X)) 1) as [E|E]; [|reflexivity]. destruct Hn as [|Hn]; [congruence|]. cbn [negb].
    destruct (Z.eqb_spec (zlen (dims lo)) (zlen (map (fun v => v - origin) (sortZ (elems X))))) as [El|]; [|reflexivity]. cbn [negb].
    destruct (axis_ok (dims hi) None (map (fun v => v - origin) (sortZ (elems X))) (dims lo)) eqn:Ea; [|reflexivity]. exfalso.
    apply axis_ok_inv in Ea; [|unfold zlen in El; lia|apply nondec_map_sub, sortZ_nondec|exact I]. destruct Ea as (A1 & _ & A3).
    apply (Hn _ (conj (conj A1 (sorted_axes_inv origin (elems X))) A3)).
  Qed.
  Theorem C46_bad_axis_right (f : sv -> sv -> outcome sv) (hi lo : arr sv) (X : arr Z) :
    zlen (dims lo) <= zlen (dims hi) ->
    (zlen (dims X) <> 1 \/ forall xs, ~ (names_axes origin (elems X) xs /\ axes_match (dims hi) xs (dims lo))) ->
    FX f (Arr hi) (Arr lo) X = Err.
  Proof.
    intros Hr Hn. unfold arrayAxis. cbn [asArr].
    destruct (Z.ltb_spec (zlen (dims hi)) (zlen (dims lo))) as [|_]; [lia|]. cbv zeta.
    destruct (Z.eqb_spec (zlen (dims X)) 1) as [E|E]; [|reflexivity]. destruct Hn as [|Hn]; [congruence|]. cbn [negb].
    destruct (Z.eqb_spec (zlen (dims lo)) (zlen (map (fun v => v - origin) (sortZ (elems X))))) as [El|]; [|reflexivity]. cbn [negb].
    destruct (axis_ok (dims hi) None (map (fun v => v - origin) (sortZ (elems X))) (dims lo)) eqn:Ea; [|reflexivity]. exfalso.
    apply axis_ok_inv in Ea; [|unfold zlen in El; lia|apply nondec_map_sub, sortZ_nondec|exact I]. destruct Ea as (A1 & _ & A3).
    apply (Hn _ (conj (conj A1 (sorted_axes_inv origin (elems X))) A3)).
  Qed.
End C46.
Print Assumptions C46_lower_left.
Print Assumptions C46_bad_axis_left.

(* ---- C53 ---- *)
Section C53.
  Context {P : Type} (M : methods P) (t : tower P) (has_uniform : ntype -> bool).
  (* without uptyping: same shape, same elements; success exactly when all
     elements have one type *)
  Theorem C53_same_data (A : rep P) : rep_ok M A -> A <> REmpty ->
    exists A' ok, Unify M t has_uniform A false = Ok (A', ok) /\
      dims (view A') = dims (view A) /\ elems (view A') = elems (view A) /\
      (ok = true <-> forall v w, In v (elems (view A)) -> In w (elems (view A)) -> stypeOf M v = stypeOf M w).
  Proof.
    intros H1 H2. destruct (unify_view M t has_uniform A H1 H2) as (A' & ok & E & V & O). exists A', ok.
    split; [exact E|]. rewrite V. split; [reflexivity|]. split; [reflexivity|exact O].
  Qed.
  (* the report of failure comes with the very array that was given, with and
     without uptyping *)
  Theorem C53_failure_unchanged (A A' : rep P) up : Unify M t has_uniform A up = Ok (A', false) -> A' = A.
  Proof.
    unfold Unify. destruct A as [a|l|a|a|a|ty a|]; cbn [isUniform]; try (intros E; congruence).
    all: destruct (elems _) as [|v0 rest]; [intros E; congruence|].
    all: destruct (scan M t v0 rest) as (same, max); destruct (negb same && negb up); [intros E; congruence|].
    all: destruct same.
    all: repeat match goal with
      | |- context [match ?x with _ => _ end] =>
          lazymatch x with
          | Ok _ => fail
          | obind ?y _ => destruct y
          | _ => destruct x
          end; cbn [obind]
      end; intros E; try congruence.
    all: unfold obind in E; repeat match type of E with context [match ?x with _ => _ end] => destruct x end; congruence.
  Qed.
  Theorem C53_empty up : Unify M t has_uniform REmpty up = Ok (REmpty, false).
  Proof. reflexivity. Qed.
  (* with uptyping: success means that the data is the same, or that each
     element is the number of the array raised to the type of its highest
     number; nothing else *)
  Theorem C53_uptype (A : rep P) : tower_ok M t -> imports_bottom M t -> rep_ok M A -> A <> REmpty ->
    exists A' ok, Unify M t has_uniform A true = Ok (A', ok) /\ (ok = false -> A' = A) /\
      (ok = true -> view A' = view A \/
         exists m, In (VNum m) (elems (view A)) /\ dims (view A') = dims (view A) /\
           Forall2 (fun v v' => exists n n' m', v = VNum n /\ v' = VNum n' /\ SameType M t n m = Ok (n', m') /\ typeOf M n' = typeOf M m)
             (elems (view A)) (elems (view A'))).
  Proof. apply unify_up. Qed.
End C53.
Print Assumptions C53_same_data.
Print Assumptions C53_uptype.

(* the towers of apl/big and apl/numbers meet the conditions of C53_uptype *)
Lemma bigT_bottom rf : imports_bottom (bigM rf) bigT.
Proof. intros [b|z|p] H; [destruct b; reflexivity|reflexivity|exfalso; apply (H p); reflexivity]. Qed.

Definition ni (z : Z) : sval bignum := VNum (NI z).
Definition padd (x y : sval bignum) := let M := bigM (fun q => q) in arith2 M bigT (add2 M) x y.
Example C45_example :
  let M := bigM (fun q => q) in let F := scalar2 M bigT (fun _ => true) padd in
  let a := mkArr [2; 3] (map ni [1; 2; 3; 4; 5; 6]) in let b := mkArr [2; 3] (map ni [10; 20; 30; 40; 50; 60]) in
  (wf a /\ wf b) /\
  F (Arr a) (Arr b) = Ok (ResA (RInts (mkArr [2; 3] [11; 22; 33; 44; 55; 66]))) /\
  F (Scal (ni 1)) (Arr a) = Ok (ResA (RInts (mkArr [2; 3] [2; 3; 4; 5; 6; 7]))) /\
  F (Arr (vec [ni 1])) (Arr a) = Ok (ResA (RInts (mkArr [2; 3] [2; 3; 4; 5; 6; 7]))) /\
  F (Arr (vec (map ni [1; 2]))) (Arr a) = Err /\
  F (Arr (vec [ni 1; VOth strT "x"%string])) (Arr (vec (map ni [1; 2]))) = Err.
Proof.
  split; [split; (split; [discriminate|split; [repeat constructor; lia|reflexivity]])|]. repeat split; vm_compute; reflexivity.
Qed.
Example C46_example :
  let M := bigM (fun q => q) in let F := arrayAxis M bigT (fun _ => true) 1 padd in
  let a := mkArr [2; 3] (map ni [1; 2; 3; 4; 5; 6]) in
  F (Arr (vec (map ni [10; 20]))) (Arr a) (vec [1]) = Ok (RInts (mkArr [2; 3] [11; 12; 13; 24; 25; 26])) /\
  F (Arr a) (Arr (vec (map ni [10; 20; 30]))) (vec [2]) = Ok (RInts (mkArr [2; 3] [11; 22; 33; 14; 25; 36])) /\
  F (Arr a) (Arr a) (vec [2; 1]) = Ok (RInts (mkArr [2; 3] [2; 4; 6; 8; 10; 12])) /\
  F (Arr a) (Arr (vec (map ni [10; 20; 30]))) (vec [1]) = Err /\
  (names_axes 1 [2; 1] [0; 1] /\ axes_match [2; 3] [0; 1] [2; 3]).
Proof.
  cbv zeta. split; [vm_compute; reflexivity|]. split; [vm_compute; reflexivity|]. split; [vm_compute; reflexivity|]. split; [vm_compute; reflexivity|].
  split; [split|].
  - apply increasing_mk; [apply increasing_mk|]; [intros p q x y _ H; apply znth_In in H; contradiction|intros ? []|intros m [<-|[]]; lia].
  - apply perm_swap.
  - repeat constructor.
Qed.
Example C53_example :
  let M := bigM (fun q => q) in
  Unify M bigT (fun _ => true) (RMixed (mkArr [2; 2] (map ni [1; 2; 3; 4]))) false = Ok (RInts (mkArr [2; 2] [1; 2; 3; 4]), true) /\
  Unify M bigT (fun _ => true) (RMixed (vec [ni 1; VOth strT "x"%string])) false = Ok (RMixed (vec [ni 1; VOth strT "x"%string]), false) /\
  Unify M bigT (fun _ => true) (RMixed (vec [ni 7; VNum (NB true)])) true = Ok (RInts (vec [7; 1]), true).
Proof. repeat split; vm_compute; reflexivity. Qed.
Lemma dT_bottom {C T} (cM : methods C) (tM : methods T) f2c c2t : imports_bottom (dM cM tM) (dT f2c c2t).
Proof. intros [b|z|p] H; [destruct b; reflexivity|reflexivity|exfalso; apply (H p); reflexivity]. Qed.
