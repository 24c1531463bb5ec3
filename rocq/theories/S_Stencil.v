(* S_Stencil.v -- vocabulary for the stencil operator. *)
From Verif Require Import Base M_Array S_Array.

(* the cell of the array below the cell q of a window with axes w that is centered at p *)
Definition below (w p q : list Z) : list Z :=
  map (fun x => fst x + fst (snd x) - snd (snd x) / 2) (combine p (combine q w)).
(* win is the window of the array a around p: what is not in the array is zero *)
Definition window_at {A} (zero : A) (a : arr A) (w p : list Z) (win : arr A) : Prop :=
  wf win /\ dims win = w /\
  forall q, inb w q -> (inb (dims a) (below w p q) -> elem win q = elem a (below w p q))
    /\ (~ inb (dims a) (below w p q) -> elem win q = Some zero).
(* the position of p relative to the center of an array of the size of the window: w/2 - p *)
Definition center_offset (w p : list Z) : list Z := map (fun x => fst x / 2 - snd x) (combine w p).
(* The axes of the window that RO asks for: a vector of them (further axes are 1), or the first
   row of a matrix with a column for each axis. *)
Definition window_axes (rank : Z) (ro : arr Z) (w : list Z) : Prop :=
  wf ro /\
  ((exists c, dims ro = [c] /\ c <= rank /\ w = elems ro ++ repeat 1 (Z.to_nat (rank - c)))
   \/ (exists r, dims ro = [r; rank] /\ 1 <= r <= 2 /\ w = firstn (Z.to_nat rank) (elems ro))).
(* how many cells of a window of width w, centered at p, are before the first and after the last
   of the n elements of an axis *)
Definition before (w p : Z) : Z := zlen (filter (fun q => p + q - w / 2 <? 0) (zseq w)).
Definition after (w n p : Z) : Z := zlen (filter (fun q => n <=? p + q - w / 2) (zseq w)).
