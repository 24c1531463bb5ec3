(* S_Structural.v -- small vocabulary for the properties of the structural
   primitives: how indexes of the result correspond to indexes of the
   argument.  Nothing here refers to the model functions. *)
From Verif Require Import Base M_Array S_Array.

(* axis -1 is the last one *)
Definition norm_axis (rank axis : Z) : Z := if axis <? 0 then rank + axis else axis.

(* a shape or index without its k-th entry *)
Definition del {A} (k : Z) (l : list A) : list A :=
  firstn (Z.to_nat k) l ++ skipn (Z.to_nat k + 1) l.

(* the source index of a transpose: coordinate k comes from result axis ints[k]
   (counted from 1) *)
Definition pick (ints idx : list Z) : list Z :=
  map (fun n => match znth idx (n - 1) with Some i => i | None => 0 end) ints.

(* where a take with count c starts on an axis of length d *)
Definition start (d c : Z) : Z := if c <? 0 then d + c else 0.
(* source coordinates of a take with per-axis counts cs *)
Fixpoint shifted (ds cs idx : list Z) : list Z :=
  match ds, cs, idx with
  | d :: dr, c :: cr, i :: ir => (i + start d c) :: shifted dr cr ir
  | _, _, _ => []
  end.
(* source coordinates of a drop: skip c cells when c is positive *)
Fixpoint skipped (cs idx : list Z) : list Z :=
  match cs, idx with
  | c :: cr, i :: ir => (i + Z.max 0 c) :: skipped cr ir
  | _, _ => []
  end.
(* lengths after a drop *)
Fixpoint remaining (ds cs : list Z) : list Z :=
  match ds, cs with
  | d :: dr, c :: cr => Z.max 0 (d - Z.abs c) :: remaining dr cr
  | _, _ => []
  end.

(* x lists every axis exactly once *)
Definition axis_perm (rank : Z) (x : list Z) : Prop :=
  NoDup x /\ zlen x = rank /\ Forall (fun k => 0 <= k < rank) x.
(* the axes not mentioned, in order *)
Definition missing_axes (rank : Z) (x : list Z) : list Z :=
  filter (fun k => negb (existsb (Z.eqb k) x)) (zseq rank).
(* cs has, for the i-th axis in the order x, the i-th count of l; axes beyond
   the length of l get the default *)
Definition counts_for (x l : list Z) (default : Z -> Z) (cs : list Z) : Prop :=
  zlen cs = zlen x /\
  forall i k, znth x i = Some k ->
    znth cs k = Some (match znth l i with Some n => n | None => default k end).

(* two shapes that agree except on axis x *)
Definition agree_but (x : Z) (sl sr : list Z) : Prop :=
  zlen sl = zlen sr /\ forall j, j <> x -> znth sl j = znth sr j.
