(* S_Array.v -- what an array *is*, independent of strides and odometers.
   These are the only notions the property theorems about arrays use. *)
From Verif Require Import Base M_Array.

(* number of elements of an array with axes ds *)
Fixpoint size (ds : list Z) : Z :=
  match ds with [] => 1 | d :: r => d * size r end.

(* idx addresses a cell of an array with axes ds: one coordinate per axis, each
   in 0..d-1 *)
Definition inb (ds idx : list Z) : Prop := Forall2 (fun d i => 0 <= i < d) ds idx.

(* row-major position: the last axis varies fastest *)
Fixpoint pos (ds idx : list Z) : Z :=
  match ds, idx with
  | d :: r, i :: is => i * size r + pos r is
  | _, _ => 0
  end.

(* all multi-indexes of a shape, in row-major order *)
Fixpoint all_idx (ds : list Z) : list (list Z) :=
  match ds with
  | [] => [[]]
  | d :: r => flat_map (fun i => map (cons i) (all_idx r)) (zseq d)
  end.

(* a well-formed array: at least one axis, no negative axis, and as many
   elements as the shape says *)
Definition wf {A} (a : arr A) : Prop :=
  dims a <> [] /\ Forall (fun d => 0 <= d) (dims a) /\ zlen (elems a) = size (dims a).

(* the element of a at multi-index idx *)
Definition elem {A} (a : arr A) (idx : list Z) : option A := znth (elems a) (pos (dims a) idx).

(* [a] is the array with axes ds whose element at each index idx is g idx *)
Definition is_array {A} (ds : list Z) (g : list Z -> option A) (a : arr A) : Prop :=
  wf a /\ dims a = ds /\ forall idx, inb ds idx -> elem a idx = g idx.

Definition vec {A} (l : list A) : arr A := mkArr [zlen l] l.
