(* M_Search.v -- model of apl/primitives/{iota,unique,grade,match,find}.go and
   of without (boolean.go).  The comparison of two elements is a parameter:
   [eqv] for isEqual (iota.go:228-252), [feq] and [fless] for the element
   functions = and < (arith2 of compare; may fail).  They are filled in by
   M_Tower.  v.Copy() is the identity on values. *)
From Verif Require Import Base M_Array M_Structural M_Reduce.

(* iota.go:44-60 interval; R is an integer *)
Definition interval (origin n : Z) : outcome (val Z) :=
  if n <? 0 then Err else
  if n =? 0 then Ok Emp else
  Ok (Arr (mkArr [n] (map (fun i => origin + i) (zseq n)))).

(* domain/array.go:50-108 ToVector.  The value is refused (None) when more
   than one axis is longer than 1. *)
Definition ToVector {A} (V : val A) : option (val A) :=
  match V with
  | Scal x => Some (Arr (mkArr [1] [x]))
  | _ =>
    let ar := asArr V in
    if zlen (dims ar) =? 1 then Some V else
    let n := zlen (elems ar) in
    if n =? 0 then Some Emp else
    if negb (fold_left Z.max (dims ar) 0 =? n) then None else
    Some (Arr (mkArr [n] (elems ar)))
  end.
(* domain/array.go:21-35 ToArray *)
Definition ToArray {A} (V : val A) : val A :=
  match V with Scal x => Arr (mkArr [1] [x]) | _ => V end.

(* iota.go:75-82: index of x in vals, from k on *)
Fixpoint index_loop {A} (eqv : A -> A -> bool) (origin notfound : Z) (x : A) (vals : list A) (k : Z) : Z :=
  match vals with
  | [] => notfound
  | v :: r => if eqv x v then k + origin else index_loop eqv origin notfound x r (k + 1)
  end.
(* iota.go:63-91 indexof, after ToVector / ToArray *)
Definition indexof {A} (eqv : A -> A -> bool) (origin : Z) (L R : val A) : val Z :=
  let vals := elemsOf L in
  let ar := asArr R in
  let notfound := zlen vals + origin in
  Arr (mkArr (dims ar) (map (fun x => index_loop eqv origin notfound x vals 0) (elems ar))).

(* iota.go:94-135 membership.  A scalar L gives a scalar. *)
Definition membership {A} (eqv : A -> A -> bool) (L R : val A) : val bool :=
  let rv := match R with Scal y => [y] | _ => elemsOf R end in
  match L with
  | Scal x => Scal (existsb (fun r => eqv r x) rv)
  | _ => let al := asArr L in
         Arr (mkArr (dims al) (map (fun l => existsb (fun r => eqv l r) rv) (elems al)))
  end.

(* unique.go:32-42: append the elements that are not yet in values *)
Fixpoint uniq_loop {A} (eqv : A -> A -> bool) (src values : list A) : list A :=
  match src with
  | [] => values
  | v :: r => if existsb (eqv v) values then uniq_loop eqv r values
              else uniq_loop eqv r (values ++ [v])
  end.
(* unique.go:27-44 unique, after ToVector.  UnifyArray keeps shape and
   elements (M_Tower).  ∪⍬ is a mixed array of shape 0. *)
Definition unique {A} (eqv : A -> A -> bool) (R : val A) : val A :=
  let l := uniq_loop eqv (elemsOf R) [] in Arr (mkArr [zlen l] l).
(* unique.go:47-81 union, after ToVector *)
Definition union {A} (eqv : A -> A -> bool) (L R : val A) : val A :=
  match L, R with
  | Emp, _ => R
  | _, Emp => L
  | _, _ => let l := uniq_loop eqv (elemsOf R) (uniq_loop eqv (elemsOf L) []) in Arr (mkArr [zlen l] l)
  end.

(* boolean.go:98-127 without, after ToVector.  An L without elements makes
   ToIndexArray return EmptyArray, on which Replicate's type assertion panics. *)
Definition without {A} (zero : A) (eqv : A -> A -> bool) (L R : val A) : outcome (val A) :=
  match L, R with
  | _, Emp => Ok L
  | Emp, _ => Ok Emp
  | _, _ =>
    match membership eqv L R with
    | Arr m =>
        let nlr := map negb (elems m) in
        if zlen nlr =? 0 then Panic else
        Replicate zero (mkArr (dims m) (map (fun b : bool => if b then 1 else 0) nlr)) L 0
    | _ => Panic
    end
  end.

(* iota.go:140-171 where; R is a BoolArray *)
Fixpoint where_loop (origin i : Z) (l : list bool) : list Z :=
  match l with
  | [] => []
  | b :: r => if b then (i + origin) :: where_loop origin (i + 1) r else where_loop origin (i + 1) r
  end.
Definition where_ (origin : Z) (R : arr bool) : outcome (val Z) :=
  if zlen (elems R) =? 0 then Ok Emp else
  if negb (zlen (dims R) =? 1) then Err else
  let l := where_loop origin 0 (elems R) in
  Ok (Arr (mkArr [zlen l] l)).

(* ---------------- grade.go ---------------- *)
(* grade.go:57-83: the flattened major cells.  For a vector the elements are
   wrapped; otherwise consecutive blocks of Prod(shape[1:]) elements. *)
Definition grade_cells {A} (ar : arr A) : outcome (list (list A)) :=
  match dims ar with
  | [] => Err
  | [d] => if d <? 0 then Panic else mapM (fun i => let* x := At ar i in Ok [x]) (zseq d)
  | d :: ds =>
      if d <? 0 then Panic else
      let subsize := Prod ds in
      if subsize <? 0 then Panic else
      mapM (fun i => mapM (fun k => At ar (i * subsize + k)) (zseq subsize)) (zseq d)
  end.
(* grade.go:187-204 Less of two cells; [lt] is the Less method of the elements
   (its second result is ignored) *)
Fixpoint cell_less {A} (lt : A -> A -> bool) (x y : list A) : bool :=
  match x, y with
  | a :: r, b :: s => if lt a b then true else if lt b a then false else cell_less lt r s
  | _, _ => false
  end.
(* grade.go:85-160: the checks and the conversion of the elements to one
   comparable type; [conv] gives None for the two errors.  b[0][0] is read:
   a panic without cells or with empty cells. *)
Definition grade_setup {A} (conv : list (list A) -> option (list (list A))) (origin : Z) (R : val A)
  : outcome (list (list A * Z)) :=
  let* b := grade_cells (asArr R) in
  let* b0 := zat b 0 in
  let* _ := zat b0 0 in
  match conv b with
  | None => Err
  | Some b => Ok (combine b (map (fun i => i + origin) (zseq (zlen b))))
  end.
(* sort.Sort works on the pairs (cell, index) through Swap; it is a parameter
   of the model: a function that, given Less, reorders the pairs. *)
Definition sorter : Type := forall A : Type, (A -> A -> bool) -> list A -> list A.
(* grade.go:37-53 grade *)
Definition grade {A} (srt : sorter) (lt : A -> A -> bool) conv (up : bool) (origin : Z) (R : val A)
  : outcome (val Z) :=
  let* b := grade_setup conv origin R in
  let less := fun p q : list A * Z => cell_less lt (fst p) (fst q) in
  let b' := srt _ (if up then less else fun p q => less q p) b in
  let idx := map snd b' in
  Ok (Arr (mkArr [zlen idx] idx)).
(* grade.go:165-175 grade2: L⍋R is ⍋L⍳R *)
Definition grade2 {A} (srt : sorter) (eqv : A -> A -> bool) (up : bool) (origin : Z) (L R : val A)
  : outcome (val Z) :=
  grade srt Z.ltb Some up origin (indexof eqv origin L R).

(* iota.go:174-224 intervalindex; L is a vector, R an array *)
Fixpoint interval_loop {A} (fless : A -> A -> outcome bool) (origin : Z) (r : A) (l : list A) (k : Z) : outcome Z :=
  match l with
  | [] => Ok 0
  | y :: rest =>
      let* b := fless r y in
      if b then Ok (k - 1 + origin) else
      match rest with
      | [] => Ok (k + origin)
      | _ => interval_loop fless origin r rest (k + 1)
      end
  end.
Definition intervalindex {A} (srt : sorter) (lt : A -> A -> bool) conv (fless : A -> A -> outcome bool)
    (origin : Z) (L R : val A) : outcome (val Z) :=
  match L with
  | Emp => Ok Emp
  | _ =>
    let* gr := grade srt lt conv true origin L in
    let ia := elemsOf gr in
    if negb (forallb (fun p => fst p =? snd p) (combine ia (map (fun i => i + origin) (zseq (zlen ia))))) then Err else
    let ar := asArr R in
    let rs := dims ar in
    let rn := if 1 <? zlen rs then Prod (tl rs) else 1 in
    let* n := zat (shapeOf L) 0 in
    let* r0 := zat rs 0 in
    if r0 <? 0 then Panic else
    let* l := mapM (fun i => let* r := At ar (i * rn) in
                             interval_loop fless origin r (firstn (Z.to_nat n) (elemsOf L)) 0) (zseq r0) in
    Ok (Arr (mkArr [r0] l))
  end.

(* ---------------- match.go ---------------- *)
Definition depth {A} (R : val A) : Z := match R with Scal _ => 0 | _ => 1 end.
(* match.go:52-70 tally, no tables or objects *)
Definition tally {A} (R : val A) : Z :=
  match R with
  | Scal _ => 1
  | _ => match shapeOf R with [] => 0 | d :: _ => d end
  end.
(* match.go:95-102: compare in order, stop at the first difference *)
Fixpoint match_loop {A} (feq : A -> A -> outcome bool) (r l : list A) : outcome bool :=
  match r, l with
  | x :: r, y :: l => let* b := feq x y in if b then match_loop feq r l else Ok false
  | [], _ => Ok true
  | _ :: _, [] => Panic
  end.
Fixpoint shape_eqb (a b : list Z) : bool :=
  match a, b with
  | [], [] => true
  | x :: r, y :: s => (x =? y) && shape_eqb r s
  | _, _ => false
  end.
(* match.go:72-106 match.  A shape without axes occurs only for EmptyArray. *)
Definition match_ {A} (eqv : A -> A -> bool) (feq : A -> A -> outcome bool) (L R : val A) : outcome bool :=
  match L, R with
  | Scal x, Scal y => Ok (eqv x y)
  | Scal _, _ | _, Scal _ => Ok false
  | _, _ =>
    let sl := shapeOf L in
    let sr := shapeOf R in
    if negb (zlen sr =? zlen sl) then Ok false else
    if zlen sr =? 0 then Ok true else
    if negb (shape_eqb sl sr) then Ok false else
    match_loop feq (elemsOf R) (elemsOf L)
  end.
Definition notmatch {A} (eqv : A -> A -> bool) feq (L R : val A) : outcome bool :=
  omap negb (match_ eqv feq L R).

(* ---------------- find.go ---------------- *)
(* find.go:70-83: compare the nl elements of the pattern with R from flat
   position i on; idx runs over the pattern's shape *)
Fixpoint find_at {A} (feq : A -> A -> outcome bool) (ar : arr A) (st ls : list Z) (i : Z) (idx : list Z) (pat : list A)
  : outcome bool :=
  match pat with
  | [] => Ok true
  | p :: r =>
      let* y := At ar (i + ic_index st idx) in
      let* b := feq p y in
      if b then find_at feq ar st ls i (IncArrayIndex idx ls) r else Ok false
  end.
(* find.go:19-94 find, after ToArray *)
Definition find {A} (feq : A -> A -> outcome bool) (L R : val A) : outcome (val bool) :=
  match R with
  | Emp => Ok Emp
  | _ =>
    let al := asArr L in
    let ar := asArr R in
    let ls := dims al in
    let rs := dims ar in
    let n := Prod rs in
    if n <? 0 then Panic else
    if zlen rs <? zlen ls then Ok (Arr (mkArr rs (repeat false (Z.to_nat n)))) else
    let d := (length rs - length ls)%nat in
    let ls' := repeat 1 d ++ ls in
    (* MakeArray(al, shape) and copying al's elements *)
    let pat := if (0 <? d)%nat then firstn (Z.to_nat (Prod ls')) (elems al) else elems al in
    let nl := if (0 <? d)%nat then Prod ls' else zlen (elems al) in
    if (0 <? d)%nat && (zlen (elems al) <? Prod ls') then Panic else
    let* st := NewIdxConverter rs in
    let* l := mapM (fun i =>
        if n - i <? nl then Ok false
        else find_at feq ar st ls' i (zerosZ (length rs)) pat) (zseq n) in
    Ok (Arr (mkArr rs l))
  end.
