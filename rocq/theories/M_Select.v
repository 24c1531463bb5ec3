(* M_Select.v -- selective assignment through operators: replicate, expand, and
   functions with an axis (operators/select.go). *)
From Verif Require Import Base M_Array M_Structural M_Index M_Reduce.
Open Scope Z_scope.

(* operators/select.go:53-86 selectSimple, and select.go:11-47 selection, which
   differs only in how the function f is called: f is applied to the array of
   positions counted from 1, so that the fill element 0 becomes -1 *)
Definition selectSimple {A} (f : val Z -> outcome (val Z)) (ar : arr A) : outcome (arr Z) :=
  let* v := f (Arr (mkArr (dims ar) (map (fun i => i + 1) (zseq (zlen (elems ar)))))) in
  let* r := selarr v in
  Ok (mkArr (dims r) (map (fun i => i - 1) (elems r))).
(* operators/reduce.go:36-43 the selection function of replicate *)
Definition replicateSelection {A} (L : arr Z) (ar : arr A) : outcome (arr Z) := selectSimple (fun v => Replicate 0 L v (-1)) ar.
(* operators/reduce.go:51-58 the selection function of expand *)
Definition expandSelection {A} (L : val Z) (ar : arr A) : outcome (arr Z) := selectSimple (fun v => Expand 0 L v (-1)) ar.
(* operators/axis.go:11-30: the selection function of take or drop with an axis;
   x is the axis list after splitAxis *)
Definition axisTakeDropSelection {A} (istake : bool) (L : val Z) (x : option (list Z)) (ar : arr A) : outcome (arr Z) :=
  selectSimple (fun v => fst (takedrop 0 0 istake L v x)) ar.
(* operators/reduce.go:44-49,59-64, register.go:30-36: ⌿ and ⍀ have no selection
   function *)
Definition noSelection {A} (ar : arr A) : outcome (arr Z) := Err.
