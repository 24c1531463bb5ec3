(* M_Index.v -- model of bracket indexing (apl/primitives/index.go) and of
   indexed and selective assignment to arrays (apl/operators/assign.go,
   apl/primitives/selection.go). *)
From Verif Require Import Base M_Array M_Structural Eff.
Open Scope Z_scope.

(* ---------------- index.go ---------------- *)
(* an axis of an index specification, after ToIndexArray (domain/array.go:191-260):
   elided (EmptyArray), integers (the elements of an index array of any shape), or
   not convertible *)
Inductive axspec := AxAll | AxInts (l : list Z) | AxBad.

(* index.go:290-325 spec2ints, for the axes that are left *)
Fixpoint spec2ints_go (origin : Z) (spec : list axspec) (shape : list Z) : outcome (list (list Z)) :=
  match spec, shape with
  | [], [] => Ok []
  | s :: spec', d :: shape' =>
      let* l := match s with
                | AxBad => Err
                | AxAll => if d <? 0 then Panic else Ok (zseq d)
                | AxInts l => mapM (fun k => if (k - origin <? 0) || (d <=? k - origin) then Err else Ok (k - origin)) l
                end in
      let* r := spec2ints_go origin spec' shape' in Ok (l :: r)
  | _, _ => Err
  end.
Definition spec2ints (origin : Z) (spec : list axspec) (shape : list Z) : outcome (list (list Z)) :=
  if negb (zlen spec =? zlen shape) then Err else spec2ints_go origin spec shape.

(* index.go:250-286 indexArray; src[k] = intspec[k][n] *)
Definition notone (d : Z) : bool := negb (d =? 1).
Definition indexArray (origin : Z) (spec : list axspec) (shape : list Z) : outcome (arr Z) :=
  let* ints := spec2ints origin spec shape in
  let ds := map zlen ints in
  let* ic := NewIdxConverter shape in
  let* r := fill ds (fun dst =>
      let* src := mapM (fun '(l, n) => zat l n) (combine ints dst) in
      Ok (ic_index ic src)) in
  Ok (mkArr (filter notone ds) (elems r)).

(* array.go:117-122 ArrayBounds, then At *)
Definition AtB {A} (a : arr A) (n : Z) : outcome A :=
  if (n <? 0) || (zlen (elems a) <=? n) then Err else At a n.
(* index.go:57-87 index.  Set on a new array of the type of ar succeeds for the
   elements of ar. *)
Definition index {A} (origin : Z) (spec : list axspec) (ar : arr A) : outcome (val A) :=
  match spec with
  | [] => Ok (Arr ar)
  | _ =>
      let* idx := indexArray origin spec (dims ar) in
      match dims idx, elems idx with
      | [], [i] => let* x := AtB ar i in Ok (Scal x)
      | _, _ =>
          if Prod (dims idx) <? 0 then Panic else
          let* l := mapM (AtB ar) (elems idx) in
          if Prod (dims idx) =? zlen l then Ok (Arr (mkArr (dims idx) l)) else Panic
      end
  end.

(* index.go:327-370 funcArrayIndex.  The answers of f: empty, a number with its
   ToIndex, anything else. *)
Inductive fanswer := FEmpty | FNum (n : option Z) | FOther.
Fixpoint fai_loop {S A} (f : list Z -> A -> eff S fanswer) (origin : Z) (shape idx : list Z) (i : Z) (l : list A) : eff S (list Z) :=
  match l with
  | [] => eret []
  | x :: r =>
      let! v := f (map (fun k => origin + k) idx) x in
      match v with
      | FEmpty => fai_loop f origin shape idx (i + 1) r          (* continue: idx is not advanced *)
      | FOther => efail
      | FNum None => efail
      | FNum (Some n) =>
          let! t := fai_loop f origin shape (IncArrayIndex idx shape) (i + 1) r in
          eret (if n =? 1 then i :: t else t)
      end
  end.
Definition funcArrayIndex {S A} (f : list Z -> A -> eff S fanswer) (origin : Z) (a : arr A) : eff S (arr Z) :=
  let! l := fai_loop f origin (dims a) (zerosZ (length (dims a))) 0 (elems a) in
  eret (mkArr [zlen l] l).

(* index.go:89-112 indexSelection, for an index specification without function *)
Definition indexSelection {A} (origin : Z) (spec : list axspec) (ar : arr A) : outcome (arr Z) :=
  match spec with
  | [] => Ok (mkArr (dims ar) (zseq (zlen (elems ar))))
  | _ => indexArray origin spec (dims ar)
  end.
(* ToIndexArray of the result of a selection function, and the type assertion:
   an EmptyArray is no IntArray (domain/array.go:191-260) *)
Definition selarr (v : val Z) : outcome (arr Z) :=
  match v with Arr r => Ok r | Scal n => Ok (mkArr [1] [n]) | Emp => Panic end.
(* selection.go:12-40 selection: the structural function applied to the array of
   positions *)
Definition selection {A} (f : val Z -> outcome (val Z)) (ar : arr A) : outcome (arr Z) :=
  let* v := f (Arr (mkArr (dims ar) (zseq (zlen (elems ar))))) in selarr v.
(* take.go:181-233 takeDropSelection; x is the axis list after splitAxis, which
   line 203-206 restores for takedrop *)
Definition takeDropSelection {A} (istake : bool) (L : val Z) (x : option (list Z)) (ar : arr A) : outcome (arr Z) :=
  let* v := fst (takedrop 0 0 istake L (Arr (mkArr (dims ar) (map (fun i => i + 1) (zseq (zlen (elems ar)))))) x) in
  let* r := selarr v in
  if existsb (fun i => i - 1 <? 0) (elems r) then Err else Ok (mkArr (dims r) (map (fun i => i - 1) (elems r))).
(* comma.go:82-92 ravelSelection *)
Definition ravelSelection {A} (ar : arr A) : outcome (arr Z) := Ok (mkArr [zlen (elems ar)] (zseq (zlen (elems ar)))).

(* ---------------- assign.go ---------------- *)
(* the array of the variable: the object that is changed in place, and the
   upgraded (mixed) copy that replaces it once a value did not fit its type *)
Record asg (A : Type) := mkAsg { orig : arr A; up : option (arr A) }.
Arguments mkAsg {A} orig up.
Arguments orig {A} a.
Arguments up {A} a.
Definition cur {A} (st : asg A) : arr A := match up st with Some u => u | None => orig st end.
(* the type of the array: how it checks the index (array.go: >=, bool.go and
   string.go: >), and which values it takes, possibly converted (IntArray.Set) *)
Record akind (A : Type) := mkKind { lax : bool; conv : A -> option A }.
Arguments mkKind {A} lax conv.
Arguments lax {A} a.
Arguments conv {A} a.
Definition setk {A} (k : akind A) (a : arr A) i v := if lax k then Set_gt (conv k) a i v else Set_ge (conv k) a i v.
Definition set_cur {A} (k : akind A) (st : asg A) (i : Z) (v : A) : outcome (asg A) :=
  match up st with
  | Some u => let* u' := Set_ge Some u i v in Ok (mkAsg (orig st) (Some u'))
  | None => let* o := setk k (orig st) i v in Ok (mkAsg o None)
  end.
(* assign.go:149-161 upgrade, then Set *)
Definition set_up {A} (st : asg A) (i : Z) (v : A) : outcome (asg A) :=
  let* u := Set_ge Some (cur st) i v in Ok (mkAsg (orig st) (Some u)).
(* assign.go:164-193 modAssign; the state holds the variable and S *)
Definition astate (S A : Type) : Type := asg A * S.
Definition aput {S A} (o : asg A -> outcome (asg A)) : eff (astate S A) unit :=
  fun s => match o (fst s) with
           | Ok st => (Ok tt, (st, snd s))
           | Err => (Err, s)
           | Panic => (Panic, s)
           end.
Definition acall {S A B} (f : asg A -> eff S B) : eff (astate S A) B :=
  fun s => let (o, s') := f (fst s) (snd s) in (o, (fst s, s')).
Definition try_set {A} (k : akind A) (i : Z) (v : A) (st : asg A) : outcome (asg A) :=
  match set_cur k st i v with Err => set_up st i v | o => o end.
Definition modAssign {S A} (k : akind A) (f : option (A -> A -> eff S A)) (i : Z) (v : A) : eff (astate S A) unit :=
  if i =? -1 then eret tt else
  match f with
  | None => aput (try_set k i v)
  | Some g =>
      let! w := acall (fun st => let! x := elift (AtB (cur st) i) in g x v) in
      aput (try_set k i w)
  end.
Fixpoint assign_all {S A} (k : akind A) (f : option (A -> A -> eff S A)) (l : list (Z * outcome A)) : eff (astate S A) unit :=
  match l with
  | [] => eret tt
  | (i, o) :: r => let! v := elift o in let! _ := modAssign k f i v in assign_all k f r
  end.
(* assign.go:196-263 assignValue, for a variable that is an array; indexes are
   given; idx is what the selection returned *)
Definition assignValue {S A} (k : akind A) (f : option (A -> A -> eff S A)) (idx : arr Z) (R : val A) : eff (astate S A) unit :=
  if sizeOf R =? 1 then
    let! v := elift (zat (elemsOf R) 0) in
    assign_all k f (map (fun i => (i, Ok v)) (elems idx))
  else
    if negb (if list_eq_dec Z.eq_dec (filter notone (dims idx)) (filter notone (shapeOf R)) then true else false) then efail else
    assign_all k f (map (fun '(j, i) => (i, AtB (asArr R) j)) (combine (zseq (zlen (elems idx))) (elems idx))).
(* assign.go:88-108 assignScalar with indexes: the value of the variable
   afterwards is the returned array, or, after an error, the array that was
   changed in place *)
Definition assignScalar {S A} (k : akind A) (f : option (A -> A -> eff S A)) (sel : arr A -> outcome (arr Z)) (R : val A) (a : arr A) : eff S unit * (S -> arr A) :=
  let run := fun s => (let! idx := elift (sel a) in assignValue k f idx R) (mkAsg a None, s) in
  (fun s => let (o, st) := run s in (o, snd st),
   fun s => match run s with (Ok _, st) => cur (fst st) | (_, st) => orig (fst st) end).
