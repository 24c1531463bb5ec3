(* S_Reduce.v -- vocabulary for the operators that work along one axis.
   Nothing here refers to the model functions. *)
From Verif Require Import Base M_Array S_Array S_Structural Eff.

(* x1 F (x2 F (... F xn)): the right-most application is made first *)
Fixpoint fold1 {S A} (f : A -> A -> eff S A) (l : list A) : eff S A :=
  match l with
  | [] => epanic
  | [x] => eret x
  | x :: r => let! y := fold1 f r in f x y
  end.

(* the same for a function without effects *)
Fixpoint fold1p {A} (f : A -> A -> A) (d : A) (l : list A) : A :=
  match l with
  | [] => d
  | [x] => x
  | x :: r => f x (fold1p f d r)
  end.

(* put coordinate i at axis k into an index that lacks this axis *)
Definition ins (k i : Z) (j : list Z) : list Z :=
  firstn (Z.to_nat k) j ++ i :: skipn (Z.to_nat k) j.

(* the line of a along axis k (of length n) at the remaining coordinates j *)
Definition line {A} (a : arr A) (k n : Z) (j : list Z) : list A :=
  flat_map (fun i => match elem a (ins k i j) with Some x => [x] | None => [] end) (zseq n).

(* the non-empty prefixes of a list, shortest first *)
Definition prefixes {A} (l : list A) : list (list A) :=
  map (fun i => firstn (Z.to_nat (i + 1)) l) (zseq (zlen l)).

(* all windows of n consecutive elements, from left to right *)
Definition windows {A} (n : Z) (l : list A) : list (list A) :=
  map (fun i => firstn (Z.to_nat n) (skipn (Z.to_nat i) l)) (zseq (zlen l - n + 1)).

(* [r] has axes ds, and its line along axis k at the p-th coordinates js[p]
   is rows[p] *)
Definition rows_at {A} (ds : list Z) (k : Z) (js : list (list Z)) (rows : list (list A)) (r : arr A) : Prop :=
  wf r /\ dims r = ds /\
  Forall2 (fun j row => znth ds k = Some (zlen row) /\
             forall i, 0 <= i < zlen row -> elem r (ins k i j) = znth row i) js rows.

(* c copies of x for a count c >= 0, |c| zeros for a negative count *)
Definition copies {A} (z : A) (c : Z) (x : A) : list A :=
  if 0 <=? c then repeat x (Z.to_nat c) else repeat z (Z.to_nat (- c)).
(* every element repeated by its own count *)
Fixpoint replicated {A} (z : A) (cs : list Z) (l : list A) : list A :=
  match cs, l with
  | c :: cr, x :: r => copies z c x ++ replicated z cr r
  | _, _ => []
  end.
(* expand: a positive entry k consumes one element and repeats it k times, a
   zero gives one zero, a negative entry -k gives k zeros *)
Fixpoint expanded {A} (z : A) (cs : list Z) (l : list A) : list A :=
  match cs with
  | [] => []
  | c :: cr =>
      if 0 <? c then match l with x :: r => repeat x (Z.to_nat c) ++ expanded z cr r | [] => [] end
      else (if c =? 0 then [z] else repeat z (Z.to_nat (- c))) ++ expanded z cr l
  end.

(* the sum of a list *)
Definition sumZ (l : list Z) : Z := fold_right Z.add 0 l.
(* a boolean list, and the number of positive entries (for a boolean list: the
   number of ones) *)
Definition bools (ai : list Z) : Prop := Forall (fun k => 0 <= k <= 1) ai.
Definition positives (cs : list Z) : Z := zlen (filter (fun c => 0 <? c) cs).
(* the windows an n-wise reduction reduces: those of a negative count are
   reversed *)
Definition nwise_windows {A} (L : Z) (l : list A) : list (list A) :=
  if L <? 0 then map (@rev A) (windows (- L) l) else windows L l.
