(* M_Scalar.v -- model of the array forms of the scalar functions
   (apl/primitives/array.go) and of the compact array representations
   (apl/uniform.go, makeUniform of apl/numbers/register.go).

   The elements are scalars ([sval]: numbers, strings, exceptions).  An array
   value has a representation [rep]; [view] is what a user sees of it. *)
From Coq Require Import String.
From Verif Require Import Base M_Array M_Structural M_Number.
Open Scope Z_scope.

Section REP.
  Context {P : Type} (M : methods P) (t : tower P).

  (* MixedArray, List (of scalars), BoolArray, IntArray, StringArray, the
     compact arrays of the tower (FloatArray, ComplexArray, TimeArray: one per
     number type), EmptyArray *)
  Inductive rep :=
  | RMixed (a : arr (sval P))
  | RList (l : list (sval P))
  | RBools (a : arr bool)
  | RInts (a : arr Z)
  | RStrings (a : arr string)
  | RNums (ty : Z) (a : arr P)
  | REmpty.

  Definition amap {A B} (f : A -> B) (a : arr A) : arr B := mkArr (dims a) (map f (elems a)).
  (* Shape and At of the representations *)
  Definition view (r : rep) : arr (sval P) :=
    match r with
    | RMixed a => a
    | RList l => mkArr [zlen l] l
    | RBools a => amap (fun b => VNum (NB b)) a
    | RInts a => amap (fun z => VNum (NI z)) a
    | RStrings a => amap (fun s => VOth strT s) a
    | RNums _ a => amap (fun p => VNum (NT p)) a
    | REmpty => mkArr [] []
    end.
  (* the interface Uniform (array.go:116-120): all but Mixed, List, Empty *)
  Definition isUniform (r : rep) : bool := match r with RMixed _ | RList _ | REmpty => false | _ => true end.

  (* reflect.TypeOf of a scalar *)
  Inductive styp := SN (n : ntype) | SO (ty : Z).
  Definition stypeOf (v : sval P) : styp := match v with VNum n => SN (typeOf M n) | VOth ty _ => SO ty end.
  Definition styp_eqb (a b : styp) : bool :=
    match a, b with SN m, SN n => ntype_eqb m n | SO s, SO r => s =? r | _, _ => false end.
  (* uniform.go:20-32 class; None is noNumber *)
  Definition sclass (v : sval P) : option Z :=
    match v with
    | VNum (NB _) => Some (-2)
    | VNum (NI _) => Some (-1)
    | VNum (NT p) => option_map Class (assoc (Numbers t) (ptype M p))
    | VOth _ _ => None
    end.

  (* which compact arrays the tower has: numbers/register.go:61-77 makeUniform
     handles Bool, Int, Float and Complex.  For Time it compares with the type of
     time.Time, which no value has: there are no compact arrays of them; big/register.go:48,83: none *)
  Context (has_uniform : ntype -> bool).
  Definition toB (v : sval P) : outcome bool := match v with VNum (NB b) => Ok b | _ => Panic end.
  Definition toI (v : sval P) : outcome Z := match v with VNum (NI z) => Ok z | _ => Panic end.
  Definition toP (ty : Z) (v : sval P) : outcome P :=
    match v with VNum (NT p) => if ptype M p =? ty then Ok p else Panic | _ => Panic end.
  Definition toS (v : sval P) : outcome string := match v with VOth ty s => if ty =? strT then Ok s else Panic | _ => Panic end.
  (* followed by rs.Reshape(shape): uniform.go:79-83, 131-135.  The value made by
     makeUniform is a vector; its Reshape is that of its type. *)
  Definition uniform_reshape (vs : list (sval P)) (shape : list Z) : outcome (option rep) :=
    if match vs with VNum n :: _ => negb (has_uniform (typeOf M n)) | _ => false end then Ok None else
    match vs with
    | [] => Ok None
    | VNum (NB _) :: _ => let* l := mapM toB vs in let* r := Reshape (mkArr [zlen l] l) shape in Ok (Some (RBools r))
    | VNum (NI _) :: _ => let* l := mapM toI vs in
                          let* r := IntReshape (mkArr [zlen l] l) shape in
                          Ok (Some (match r with Some a => RInts a | None => REmpty end))
    | VNum (NT p) :: _ => let* l := mapM (toP (ptype M p)) vs in let* r := Reshape (mkArr [zlen l] l) shape in Ok (Some (RNums (ptype M p) r))
    | VOth _ _ :: _ => Ok None
    end.

  (* uniform.go:41-70: scan of the elements after the first: (all of one type,
     maximal class with the number that has it; None when a non-number was seen) *)
  Definition scan (v0 : sval P) (rest : list (sval P)) : bool * option (Z * num P) :=
    fold_left (fun '(same, max) v =>
        (same && styp_eqb (stypeOf v) (stypeOf v0),
         match max with
         | None => None
         | Some (c, n) =>
             match sclass v, v with
             | Some c', VNum n' => if c <? c' then Some (c', n') else Some (c, n)
             | _, _ => None
             end
         end)) rest
      (true, match sclass v0, v0 with Some c, VNum n => Some (c, n) | _, _ => None end).

  (* uniform.go:10-138 Unify.  Early returns of the scan have no effects and are
     taken after it.  The branches 93-110 for Bool and Int elements are not
     reachable (their class is not noNumber). *)
  Definition Unify (A : rep) (uptype : bool) : outcome (rep * bool) :=
    match A with
    | REmpty => Ok (A, false)
    | _ =>
      if isUniform A then Ok (A, true) else
      match elems (view A) with
      | [] => Ok (A, true)
      | (v0 :: rest) as vs =>
          let '(same, max) := scan v0 rest in
          if negb same && negb uptype then Ok (A, false) else
          if same then
            match max with
            | Some _ =>
                let* u := uniform_reshape vs (dims (view A)) in
                match u with None => Ok (A, true) | Some r => Ok (r, true) end
            | None =>
                match v0 with
                | VOth ty _ => if ty =? strT then let* l := mapM toS vs in Ok (RStrings (mkArr (dims (view A)) l), true) else Ok (A, true)
                | _ => Ok (A, true)
                end
            end
          else
            match max with
            | None => Ok (A, false)
            | Some (_, m) =>
                match mapM (fun v => match v with VNum n => omap fst (SameType M t n m) | _ => Panic end) vs with
                | Err => Ok (A, false)
                | Panic => Panic
                | Ok ns =>
                    let* u := uniform_reshape (map VNum ns) (dims (view A)) in
                    match u with None => Ok (A, false) | Some r => Ok (r, true) end
                end
            end
      end
    end.

  (* the type test of the loops of array.go: all results of the type of the first *)
  Definition all_same (vs : list (sval P)) : bool :=
    match vs with [] => true | v0 :: r => forallb (fun v => styp_eqb (stypeOf v) (stypeOf v0)) r end.
  Definition finish (res : arr (sval P)) : outcome rep :=
    if all_same (elems res) then let* (u, _) := Unify (RMixed res) false in Ok u else Ok (RMixed res).

  (* an argument: a scalar or an array *)
  Definition sarg : Type := val (sval P).
  Inductive sres := ResS (v : sval P) | ResA (r : rep).

  (* array.go:108-134 array1; the result of a 0-element array is an (unreduced)
     array of the same shape *)
  Definition array1 (efn : sval P -> outcome (sval P)) (R : sarg) : outcome rep :=
    let ar := asArr R in
    if Prod (dims ar) <? 0 then Panic else
    let* l := mapM (fun i => let* v := At ar i in efn v) (zseq (Prod (dims ar))) in
    finish (mkArr (dims ar) l).
  (* elementary.go:36-46: a scalar goes to arith1, an array to array1 *)
  Definition scalar1 (efn : sval P -> outcome (sval P)) (R : sarg) : outcome sres :=
    match R with Scal v => omap ResS (efn v) | _ => omap ResA (array1 efn R) end.

  (* array.go:21-73 arrays.To; None: not accepted *)
  Fixpoint leqb (a b : list Z) : bool :=
    match a, b with [], [] => true | x :: r, y :: s => (x =? y) && leqb r s | _, _ => false end.
  Definition arrays_to (L R : sarg) : option (outcome (sarg * sarg)) :=
    match L, R with
    | Scal _, Scal _ => None
    | Scal _, _ => Some (Ok (L, R))
    | _, Scal _ => Some (Ok (L, R))
    | _, _ =>
        if sizeOf L =? 0 then Some (Ok (Emp, R)) else
        if sizeOf R =? 0 then Some (Ok (L, Emp)) else
        if leqb (shapeOf L) (shapeOf R) then Some (Ok (L, R)) else
        if sizeOf L =? 1 then Some (let* v := At (asArr L) 0 in Ok (Scal v, R)) else
        if sizeOf R =? 1 then Some (let* v := At (asArr R) 0 in Ok (L, Scal v)) else None
    end.
  (* array.go:139-192 array2 *)
  Definition array2 (efn : sval P -> sval P -> outcome (sval P)) (L R : sarg) : outcome rep :=
    match L, R with
    | Emp, _ | _, Emp => Ok REmpty
    | _, _ =>
        let shape := match L with Scal _ => shapeOf R | _ => shapeOf L end in
        if Prod shape <? 0 then Panic else
        let* l := mapM (fun i =>
            let* lv := match L with Scal x => Ok x | _ => At (asArr L) i end in
            let* rv := match R with Scal y => Ok y | _ => At (asArr R) i end in
            efn lv rv) (zseq (Prod shape)) in
        finish (mkArr shape l)
    end.
  (* elementary.go:59-70: two scalars go to arith2, arrays to array2, anything
     else is not accepted *)
  Definition scalar2 (efn : sval P -> sval P -> outcome (sval P)) (L R : sarg) : outcome sres :=
    match L, R with
    | Scal x, Scal y => omap ResS (efn x y)
    | _, _ => match arrays_to L R with
              | None => Err
              | Some o => let* (l, r) := o in omap ResA (array2 efn l r)
              end
    end.

  (* sort.Ints *)
  Fixpoint insertZ (x : Z) (l : list Z) : list Z :=
    match l with [] => [x] | y :: r => if x <=? y then x :: l else y :: insertZ x r end.
  Definition sortZ (l : list Z) : list Z := fold_right insertZ [] l.
  (* array.go:240-253: the checks, for the i-th axis n *)
  Fixpoint axis_ok (ls : list Z) (prev : option Z) (x rs : list Z) : bool :=
    match x, rs with
    | n :: x', d :: rs' =>
        if (n <? 0) || (zlen ls <=? n) then false else
        if (match prev with Some p => n =? p | None => false end) then false else
        match znth ls n with Some dn => if dn =? d then axis_ok ls (Some n) x' rs' else false | None => false end
    | _, _ => true
    end.
  Definition rightShape (rank : nat) (x rs : list Z) : list Z :=
    fold_left (fun s '(n, d) => zupd s n d) (combine x rs) (repeat 1 rank).
  Definition clip (idx rshape : list Z) : list Z := map (fun '(i, d) => if d <=? i then 0 else i) (combine idx rshape).
  (* array.go:195-312 arrayAxis.  X is the axis vector.  al.At(i) with the loop
     counter i is written with the index vector that the loop carries along. *)
  Definition arrayAxis (origin : Z) (efn : sval P -> sval P -> outcome (sval P)) (L R : sarg) (X : arr Z) : outcome rep :=
    match L, R with
    | Emp, _ | _, Emp => Ok REmpty
    | _, _ =>
        let flip := zlen (dims (asArr L)) <? zlen (dims (asArr R)) in
        let al := if flip then asArr R else asArr L in
        let ar := if flip then asArr L else asArr R in
        let ls := dims al in let rs := dims ar in
        if negb (zlen (dims X) =? 1) then Err else
        let x := map (fun v => v - origin) (sortZ (elems X)) in
        if negb (zlen rs =? zlen x) then Err else
        if negb (axis_ok ls None x rs) then Err else
        let rsh := rightShape (length ls) x rs in
        let* ic := NewIdxConverter rsh in
        let* res := fill ls (fun idx =>
            let* lv := At al (ic_index (strides ls) idx) in
            let* rv := At ar (ic_index ic (clip idx rsh)) in
            if flip then efn rv lv else efn lv rv) in
        finish res
    end.
End REP.
Arguments rep : clear implicits.
Arguments sres : clear implicits.
