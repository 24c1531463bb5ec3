(* M_List.v -- model of nested lists: apl/list.go, the list functions of
   apl/primitives (index.go, take.go, comma.go, enclose.go, match.go), each on
   lists (apl/operators/each.go) and assignment to a list (apl/operators/assign.go).

   A list value is a tree: an element that is not a List is an atom of the
   abstract type A (numbers, strings, arrays, dictionaries, ...).  Simplification:
   lists are values here; sharing of the underlying Go slices is the subject of
   M_Heap.v. *)
From Verif Require Import Base Eff.
Open Scope Z_scope.

(* list.go:10 List []Value *)
Inductive lval (A : Type) := Atom (a : A) | Lst (l : list (lval A)).
Arguments Atom {A}. Arguments Lst {A}.

(* list.go:65-88 getset, v = nil: the read *)
Fixpoint GetDeep {A} (l : list (lval A)) (idx : list Z) : outcome (lval A) :=
  match idx with
  | [] => Err
  | k :: idx' =>
      if (k <? 0) || (zlen l <=? k) then Err else
      let* v := zat l k in
      match idx' with
      | [] => Ok v
      | _ => match v with Lst l' => GetDeep l' idx' | Atom _ => Err end
      end
  end.
(* list.go:65-88 getset, v <> nil: the write; the slices are updated in place, the
   result is the list afterwards (on error nothing has been written) *)
Fixpoint SetDeep {A} (l : list (lval A)) (idx : list Z) (x : lval A) : outcome (list (lval A)) :=
  match idx with
  | [] => Err
  | k :: idx' =>
      if (k <? 0) || (zlen l <=? k) then Err else
      let* v := zat l k in
      match idx' with
      | [] => Ok (zupd l k x)
      | _ => match v with
             | Lst l' => let* l'' := SetDeep l' idx' x in Ok (zupd l k (Lst l''))
             | Atom _ => Err
             end
      end
  end.
(* list.go:52-63 Depth *)
Fixpoint Depth {A} (v : lval A) : Z :=
  match v with
  | Atom _ => 0
  | Lst l => fold_left (fun mx e => match e with
                                    | Lst _ => if mx <? 1 + Depth e then 1 + Depth e else mx
                                    | Atom _ => mx
                                    end) l 1
  end.
(* match.go:38-48 depth; isarr tells for an atom if it is an Array *)
Definition depth {A} (isarr : A -> bool) (v : lval A) : Z :=
  match v with Lst _ => Depth v | Atom a => if isarr a then 1 else 0 end.

(* an element of an index specification (index.go:432-444) after
   ToIndexArray (domain/array.go:191-256): an index array, the EmptyArray (the type
   assertion panics) or a value that cannot be converted *)
Inductive litem := LIInts (dims ints : list Z) | LIEmpty | LIBad.
Definition item_int (origin : Z) (s : litem) : outcome Z :=
  match s with
  | LIBad => Err
  | LIEmpty => Panic
  | LIInts ds is =>
      match ds with
      | [d] => if d =? 1 then let* i := zat is 0 in Ok (i - origin) else Err
      | _ => Err
      end
  end.
(* index.go:449-464: resolve negative indexes while descending *)
Fixpoint list_resolve {A} (l : list (lval A)) (idx : list Z) : outcome (list Z) :=
  match idx with
  | [] => Ok []
  | k :: idx' =>
      let k := if k <? 0 then zlen l + k else k in
      if (k <? 0) || (zlen l <=? k) then Err else
      let* v := zat l k in
      match idx' with
      | [] => Ok [k]
      | _ => match v with Lst l' => let* r := list_resolve l' idx' in Ok (k :: r) | Atom _ => Err end
      end
  end.
(* index.go:421-466 listSelection; speclist: the only index is itself a List *)
Definition listSelection {A} (origin : Z) (speclist : bool) (spec : list litem) (l : list (lval A)) : outcome (list Z) :=
  if (zlen spec =? 1) && speclist then Err else
  let* idx := mapM (item_int origin) spec in
  list_resolve l idx.
(* index.go:408-414: the type assertion v.(apl.List) panics on an atom *)
Fixpoint list_walk {A} (l : list (lval A)) (idx : list Z) : outcome (lval A) :=
  match idx with
  | [] => Ok (Lst l)
  | k :: idx' =>
      let* v := zat l k in
      match idx' with
      | [] => Ok v
      | _ => match v with Lst l' => list_walk l' idx' | Atom _ => Panic end
      end
  end.
(* index.go:397-417 listIndex *)
Definition listIndex {A} (origin : Z) (speclist : bool) (spec : list litem) (l : list (lval A)) : outcome (lval A) :=
  let* idx := listSelection origin speclist spec l in
  list_walk l idx.

(* assign.go:503-516 assignList; the second component is the list afterwards *)
Definition assignList {S A} (f : option (lval A -> lval A -> eff S (lval A))) (idx : list Z) (R : lval A) (l : list (lval A))
  : eff S (list (lval A)) :=
  let! x := match f with
            | None => eret R
            | Some f => let! v := elift (GetDeep l idx) in f v R
            end in
  elift (SetDeep l idx x).
(* L[spec]←R and L[spec]f←R for a list variable: selection (index.go:421), then
   assignList *)
Definition list_assign {S A} (origin : Z) (speclist : bool) (spec : list litem) (f : option (lval A -> lval A -> eff S (lval A)))
  (R : lval A) (l : list (lval A)) : eff S (list (lval A)) :=
  let! idx := elift (listSelection origin speclist spec l) in
  assignList f idx R l.

(* take.go:237-268 cut; L = None is the EmptyArray (the type assertion panics) *)
Fixpoint cut_idx (origin n : Z) (prev : option Z) (l : list Z) : outcome (list Z) :=
  match l with
  | [] => Ok []
  | i :: l' =>
      let k := i - origin in
      let k := if k <? 0 then n + k else k in
      if match prev with Some p => k <=? p | None => false end then Err else
      if (k <? 0) || (n <=? k) then Err else
      let* r := cut_idx origin n (Some k) l' in Ok (k :: r)
  end.
(* a Go slice expression r[a:b] *)
Definition slice {A} (l : list A) (a b : Z) : outcome (list A) :=
  if (a <? 0) || (b <? a) || (zlen l <? b) then Panic else Ok (firstn (Z.to_nat (b - a)) (skipn (Z.to_nat a) l)).
Definition cut {A} (origin : Z) (L : option (list Z * list Z)) (r : list (lval A)) : outcome (list (lval A)) :=
  match L with
  | None => Panic
  | Some (ds, ints) =>
      if negb (zlen ds =? 1) then Err else
      let* idx := cut_idx origin (zlen r) None ints in
      if zlen idx =? 1 then let* i := zat idx 0 in slice r i (zlen r)
      else mapM (fun i => let* a := zat idx i in
                          let* b := if i <? zlen idx - 1 then zat idx (i + 1) else Ok (zlen r) in
                          let* s := slice r a b in Ok (Lst s)) (zseq (zlen idx))
  end.

(* comma.go:433-446 the recursive closure of enlist *)
Fixpoint enlist_f {A} (v : lval A) : list (lval A) :=
  match v with
  | Atom a => [Atom a]
  | Lst l => fold_left (fun res e => res ++ enlist_f e) l []
  end.
(* comma.go:426-448 enlist *)
Definition enlist {A} (R : lval A) : lval A :=
  match R with Atom a => Lst [Atom a] | Lst l => Lst (enlist_f (Lst l)) end.

(* comma.go:312-328 catenateLists; called only if L or R is a list.  If neither
   were, R would be dropped. *)
Definition catenateLists {A} (L R : lval A) : lval A :=
  let r0 := match R with Lst r => r | Atom _ => [] end in
  match L, R with
  | Lst l, Lst r => Lst (l ++ r)
  | Lst l, Atom _ => Lst (l ++ [R])
  | Atom _, _ => Lst ([L] ++ r0)
  end.
(* enclose.go:100-106 first *)
Definition first {A} (empty : A) (r : list (lval A)) : lval A :=
  match r with [] => Atom empty | x :: _ => x end.
(* each.go:72-82 eachList *)
Definition eachList {S A} (f : lval A -> eff S (lval A)) (l : list (lval A)) : eff S (list (lval A)) := mapE f l.
(* each.go:190-219 eachList2 *)
Definition eachList2 {S A} (f : lval A -> lval A -> eff S (lval A)) (L R : lval A) : eff S (list (lval A)) :=
  let size := match L with Lst l => zlen l | Atom _ => 0 end in
  if match R with Lst r => negb (zlen r =? size) | Atom _ => false end then efail else
  mapE (fun i => let! lv := elift (match L with Lst l => zat l i | Atom _ => Ok L end) in
                 let! rv := elift (match R with Lst r => zat r i | Atom _ => Ok R end) in
                 f lv rv) (zseq size).
