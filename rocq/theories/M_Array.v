(* M_Array.v -- model of the array core of apl/array.go, apl/bool.go and
   apl/string.go: shapes, row-major index conversion, the index odometer,
   element store and reshape. *)
From Verif Require Import Base.

(* apl/array.go:204-207 MixedArray{Values, Dims}, 274-278 IntArray{Ints, Dims},
   apl/bool.go:41-44 BoolArray, apl/string.go:55-58 StringArray.
   All four are a shape plus the elements in row-major order; the model is
   generic in the element type [A].  EmptyArray (array.go:254) has no fields
   and is modelled where it matters as [None] / a separate constructor. *)
Record arr (A : Type) : Type := mkArr { dims : list Z; elems : list A }.
Arguments mkArr {A} dims elems.
Arguments dims {A} a.
Arguments elems {A} a.

(* apl/array.go:136-145 Prod.  Sic: the product of the empty shape is 0. *)
Definition Prod (shape : list Z) : Z :=
  match shape with
  | [] => 0
  | d :: ds => fold_left Z.mul ds d
  end.

(* apl/array.go:159-167 NewIdxConverter: the stride vector.
   ic[last] = 1, ic[i] = ic[i+1] * shape[i+1].
   (The Go code panics on an empty shape: see [NewIdxConverter].) *)
Fixpoint strides (shape : list Z) : list Z :=
  match shape with
  | [] => []
  | [_] => [1]
  | _ :: ((d1 :: _) as ds) =>
      match strides ds with
      | (s1 :: _) as ss => (s1 * d1) :: ss
      | [] => []
      end
  end.
Definition NewIdxConverter (shape : list Z) : outcome (list Z) :=
  match shape with [] => Panic | _ => Ok (strides shape) end.

(* apl/array.go:169-176 IdxConverter.Index: sum of ic[i]*idx[i]. *)
Fixpoint ic_index (ic idx : list Z) : Z :=
  match ic, idx with
  | s :: ss, i :: is => s * i + ic_index ss is
  | _, _ => 0
  end.

(* apl/array.go:178-184 IdxConverter.Indexes: successive division.
   Go division truncates and panics for a zero stride. *)
Fixpoint ic_indexes (ic : list Z) (n : Z) : outcome (list Z) :=
  match ic with
  | [] => Ok []
  | s :: ss =>
      if s =? 0 then Panic else
      let q := Z.quot n s in
      let* r := ic_indexes ss (n - q * s) in
      Ok (q :: r)
  end.

(* apl/array.go:186-194 IncArrayIndex: the odometer.  The second component is
   the carry out of the leftmost axis processed so far (true: wrapped). *)
Fixpoint inc_aux (idx shape : list Z) : list Z * bool :=
  match idx, shape with
  | i :: is, d :: ds =>
      let (is', c) := inc_aux is ds in
      if c then (if i + 1 <? d then (i + 1 :: is', false) else (0 :: is', true))
      else (i :: is', false)
  | _, _ => ([], true)
  end.
Definition IncArrayIndex (idx shape : list Z) : list Z := fst (inc_aux idx shape).

(* make([]int, n): a slice of zeros *)
Definition zerosZ (n : nat) : list Z := repeat 0 n.

(* The loop  for i := 0; i < size; i++ { v := body(idx); res.Set(i, v);
   IncArrayIndex(idx, shape) }  that reverse, rotate, Take, catenate,
   laminate, ... share: the index vector is carried along. *)
Fixpoint odo_loop {A} (n : nat) (idx shape : list Z) (body : list Z -> outcome A)
  : outcome (list A) :=
  match n with
  | O => Ok []
  | S m => let* x := body idx in
           let* r := odo_loop m (IncArrayIndex idx shape) shape body in
           Ok (x :: r)
  end.

(* Allocation of a result of the given shape (NewMixed array.go:196-201, Make)
   filled by the odometer loop.  A negative size panics in make(). *)
Definition fill {A} (shape : list Z) (body : list Z -> outcome A) : outcome (arr A) :=
  if Prod shape <? 0 then Panic else
  let* l := odo_loop (Z.to_nat (Prod shape)) (zerosZ (length shape)) shape body in
  Ok (mkArr shape l).

(* At: array.go:221 / 290 / bool.go:56 / string.go:70: slice access, panics
   outside the slice. *)
Definition At {A} (a : arr A) (i : Z) : outcome A := zat (elems a) i.

(* ---- Set ---- *)
(* array.go:225-231 MixedArray.Set and array.go:306-321 IntArray.Set:
   guard i < 0 || i >= len.  [conv] is the type check/conversion of the value
   (always succeeds for MixedArray). *)
Definition Set_ge {V A} (conv : V -> option A) (a : arr A) (i : Z) (v : V) : outcome (arr A) :=
  if (i <? 0) || (zlen (elems a) <=? i) then Err else
  match conv v with
  | Some x => Ok (mkArr (dims a) (zupd (elems a) i x))
  | None => Err
  end.
(* bool.go:72-81 BoolArray.Set, string.go:86-95 StringArray.Set and the arrays of the default
   tower, numbers/floats.go:40-49, numbers/complexs.go:41-50, numbers/times.go:42-51:
   guard i < 0 || i > len, then the type check, then b[i] = v which panics for
   i = len. *)
Definition Set_gt {V A} (conv : V -> option A) (a : arr A) (i : Z) (v : V) : outcome (arr A) :=
  if (i <? 0) || (zlen (elems a) <? i) then Err else
  match conv v with
  | Some x => if i =? zlen (elems a) then Panic
              else Ok (mkArr (dims a) (zupd (elems a) i x))
  | None => Err
  end.

(* ---- Reshape ---- *)
(* The loop of array.go:241-252, array.go:341-361, bool.go:100-113,
   string.go:117-130: n result elements, k is the read position. *)
Fixpoint reshape_loop {A} (n : nat) (k : Z) (src : list A) : outcome (list A) :=
  match n with
  | O => Ok []
  | S m =>
      let* x := zat src k in
      let k1 := k + 1 in
      let* r := reshape_loop m (if k1 =? zlen src then 0 else k1) src in
      Ok (x :: r)
  end.
(* array.go:241 MixedArray.Reshape, bool.go:100, string.go:117, numbers/floats.go:69-83,
   numbers/complexs.go:70-84, numbers/times.go:53-67. *)
Definition Reshape {A} (a : arr A) (shape : list Z) : outcome (arr A) :=
  if Prod shape <? 0 then Panic else
  let* l := reshape_loop (Z.to_nat (Prod shape)) 0 (elems a) in
  Ok (mkArr shape l).
(* array.go:341 IntArray.Reshape: None stands for EmptyArray{}. *)
Definition IntReshape (a : arr Z) (shape : list Z) : outcome (option (arr Z)) :=
  match elems a with
  | [] => Ok None
  | _ => omap Some (Reshape a shape)
  end.
(* array.go:262-272 EmptyArray.Reshape: zeros. *)
Definition EmptyReshape (shape : list Z) : outcome (option (arr Z)) :=
  match shape with
  | [] => Ok None
  | _ => if Prod shape <? 0 then Panic
         else Ok (Some (mkArr shape (zerosZ (Z.to_nat (Prod shape)))))
  end.
