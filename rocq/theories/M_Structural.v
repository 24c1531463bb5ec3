(* M_Structural.v -- model of the structural primitives:
   apl/primitives/{rho,reverse,transpose,take,comma,axis}.go and
   apl/operators/rank.go Take.

   Elements are of an arbitrary type [A]; the final UnifyArray (uniform.go),
   which only changes the representation of the element storage (see
   P_Unify), is the identity here. *)
From Verif Require Import Base M_Array.

(* The argument of a structural primitive: a scalar value, the EmptyArray
   (array.go:254) or a proper array. *)
Inductive val (A : Type) : Type :=
| Scal (x : A)
| Emp
| Arr (a : arr A).
Arguments Scal {A} x.
Arguments Emp {A}.
Arguments Arr {A} a.

Definition isArray {A} (v : val A) : bool := match v with Scal _ => false | _ => true end.
(* Shape(): nil for EmptyArray (array.go:260) *)
Definition shapeOf {A} (v : val A) : list Z := match v with Arr a => dims a | _ => [] end.
Definition elemsOf {A} (v : val A) : list A :=
  match v with Scal x => [x] | Emp => [] | Arr a => elems a end.
(* Size(): len of the element slice *)
Definition sizeOf {A} (v : val A) : Z := zlen (elemsOf v).
Definition asArr {A} (v : val A) : arr A :=
  match v with Scal x => mkArr [1] [x] | Emp => mkArr [] [] | Arr a => a end.

(* Go's int is a 64-bit two's complement number: a sum, product or negation is the exact one reduced
   to the range -2^63 .. 2^63-1.  Lengths and indexes that belong to an array in memory are far from
   that range's ends and are modelled by exact integers; numbers that come from the user (a shape, a
   count) can be anywhere in it, and the arithmetic on them is modelled with this reduction. *)
Definition wrap64 (z : Z) : Z := (z + 2 ^ 63) mod 2 ^ 64 - 2 ^ 63.

(* ---------------- rho.go ---------------- *)
(* Reshape as called with a shape given by the user: apl.Prod (array.go:136-145) multiplies with
   wrap-around, and the order of the reductions does not matter for the product. *)
Definition ReshapeUser {A} (a : arr A) (shape : list Z) : outcome (arr A) :=
  let n := wrap64 (Prod shape) in
  if n <? 0 then Panic else
  let* l := reshape_loop (Z.to_nat n) 0 (elems a) in
  Ok (mkArr shape l).
(* rho.go:33-62 rho1, for scalars and arrays (tables/objects: M_Table). *)
Definition rho1 {A} (R : val A) : val Z :=
  match R with
  | Scal _ => Emp
  | Emp => Arr (mkArr [1] [0])
  | Arr a => Arr (mkArr [zlen (dims a)] (dims a))
  end.
(* rho.go:65-83 rho2.  L has been converted to an index vector by the domain
   ToVector(ToIndexArray), a scalar R to a one-element array by ToArray.
   [z] is the zero that EmptyArray.Reshape (array.go:262-272) fills with. *)
Definition rho2 {A} (z : A) (L : list Z) (R : val A) : outcome (val A) :=
  match L with
  | [] => Ok Emp
  | _ =>
    match R with
    | Emp => if wrap64 (Prod L) <? 0 then Panic
             else Ok (Arr (mkArr L (repeat z (Z.to_nat (wrap64 (Prod L))))))
    | _ => omap Arr (ReshapeUser (asArr R) L)
    end
  end.

(* ---------------- reverse.go ---------------- *)
(* reverse.go:50-88 reverse; [axis] is the argument after splitAxis. *)
Definition reverse {A} (R : val A) (axis : Z) : outcome (val A) :=
  match R with
  | Scal x => Ok (Scal x)
  | _ =>
    let ar := asArr R in
    let shape := dims ar in
    let axis := if axis <? 0 then zlen shape + axis else axis in
    if (axis <? 0) || (zlen shape <=? axis) then Err else
    let* ic := NewIdxConverter shape in
    omap Arr (fill shape (fun dst =>
      let* n := zat shape axis in
      let* i := zat dst axis in
      At ar (ic_index ic (zupd dst axis (n - i - 1)))))
  end.
(* reverse.go:44-49 *)
Definition revLast {A} (R : val A) := reverse R (-1).
Definition revFirst {A} (R : val A) := reverse R 0.

(* reverse.go:131-137 rot: Go's % truncates; i + n wraps around. *)
Definition rot (i n size : Z) : Z :=
  let k := Z.rem (wrap64 (i + n)) size in
  if k <? 0 then size + k else k.

(* reverse.go:171-180: shape agreement of L with R minus the axis. *)
Fixpoint rot_conform (shape lshape : list Z) (axis i : Z) : outcome bool :=
  match lshape with
  | [] => Ok true
  | l :: ls =>
      let k := if axis <=? i then i + 1 else i in
      let* s := zat shape k in
      if s =? l then rot_conform shape ls axis (i + 1) else Ok false
  end.

(* reverse.go:101-201 rotate, L : IntArray. *)
Definition rotate {A} (L : arr Z) (R : val A) (axis : Z) : outcome (val A) :=
  match R with
  | Scal x => Ok (Scal x)
  | _ =>
    let ar := asArr R in
    let shape := dims ar in
    let lshape := dims L in
    (* 139-152: vector shortcut *)
    if zlen shape =? 1 then
      match lshape with
      | [1] =>
          let* n := At L 0 in
          let* size := zat shape 0 in
          if size <? 0 then Panic else
          let* l := mapM (fun i => At ar (rot i n size)) (zseq size) in
          Ok (Arr (mkArr [size] l))
      | _ => Err
      end
    else
    let axis := if axis <? 0 then zlen shape + axis else axis in
    if (axis <? 0) || (zlen shape <=? axis) then Err else
    (* 162-174: sic, the new shape repeats lshape[0], and only if the rank of
       R exceeds 2.  IntArray.Reshape of an empty L would be EmptyArray, whose
       type assertion panics. *)
    let* al :=
      match lshape with
      | [l0] =>
          if 2 <? zlen shape then
            match elems L with
            | [] => Panic
            | _ => Reshape L (repeat l0 (length shape - 1))
            end
          else Ok L
      | _ => Ok L
      end in
    let lshape := dims al in
    if negb (zlen lshape =? zlen shape - 1) then Err else
    let* c := rot_conform shape lshape axis 0 in
    if negb c then Err else
    let* lic := NewIdxConverter lshape in
    let* ric := NewIdxConverter shape in
    omap Arr (fill shape (fun dst =>
      let* axsize := zat shape axis in
      let a := Z.to_nat axis in
      let idx := firstn a dst ++ skipn (a + 1) dst in
      let* n := At al (ic_index lic idx) in
      let* d := zat dst axis in
      At ar (ic_index ric (zupd dst axis (rot d n axsize)))))
  end.
(* reverse.go:90-95 *)
Definition rotLast {A} (L : arr Z) (R : val A) := rotate L R (-1).
Definition rotFirst {A} (L : arr Z) (R : val A) := rotate L R 0.

(* ---------------- transpose.go ---------------- *)
(* transpose.go:104-121: every value >= 1 and all of 1..max present. *)
Definition listmax (m : Z) (l : list Z) : Z := fold_left (fun m v => if m <? v then v else m) l m.
Definition listmin (m : Z) (l : list Z) : Z := fold_left (fun m v => if v <? m then v else m) l m.

(* transpose.go:129-141: element i of shape is the minimum of the axes of R
   that L maps to i+1, starting from maxRS. *)
Definition tshape (ints rs : list Z) (max : Z) : list Z :=
  let maxRS := listmax 0 rs in
  map (fun i => listmin maxRS
        (map snd (filter (fun p => fst p =? i + 1) (combine ints rs)))) (zseq max).

(* transpose.go:69-154 transposeIndexes.
   Result: flat source positions, shape, and the contents of the slice al.Ints
   afterwards (line 98-102 adds 1 in place when Origin is 0: for a dyadic call
   this is the caller's array). *)
Definition transposeIndexes (origin : Z) (L : option (arr Z)) (rs : list Z)
  : outcome (list Z * list Z) * arr Z :=
  let l := match L with
           | None => mkArr [zlen rs]
                       (map (fun i => zlen rs - i - 1 + origin) (zseq (zlen rs)))
           | Some l => l
           end in
  match dims l with
  | [l0] =>
    if negb (l0 =? zlen rs) then (Err, l) else
    let ints := if origin =? 0 then map (fun v => v + 1) (elems l) else elems l in
    let l' := mkArr (dims l) ints in
    let res :=
      if existsb (fun v => v <? 1) ints then Err else
      let max := listmax (-1) ints in
      if negb (forallb (fun i => existsb (Z.eqb (i + 1)) ints) (zseq max)) then Err else
      if max <? 0 then Panic else
      let shape := tshape ints rs max in
      if Prod shape <? 0 then Panic else
      let* ics := NewIdxConverter shape in
      let* icr := NewIdxConverter rs in
      let* flat := mapM (fun i =>
          let* sidx := ic_indexes ics i in
          let* ridx := mapM (fun n => zat sidx (n - 1)) ints in
          Ok (ic_index icr ridx)) (zseq (Prod shape)) in
      Ok (flat, shape) in
    (res, l')
  | _ => (Err, l)
  end.

(* transpose.go:46-67 transpose.  The second component is the left argument's
   array after the call. *)
Definition transpose {A} (origin : Z) (L : option (val Z)) (R : val A)
  : outcome (val A) * option (val Z) :=
  match L with
  | Some Emp =>
      match R with
      | Scal x => (Ok (Scal x), L)
      | _ => (Err, L)
      end
  | _ =>
    match R with
    | Scal _ => (Panic, L)  (* excluded by the domain: IsArray *)
    | _ =>
      let ar := asArr R in
      let (res, l') := transposeIndexes origin
                         (match L with Some (Arr l) => Some l | _ => None end) (dims ar) in
      (let* p := res in
       let* l := mapM (fun k => At ar k) (fst p) in
       Ok (Arr (mkArr (snd p) l)),
       match L with Some (Arr _) => Some (Arr l') | _ => L end)
    end
  end.

(* ---------------- take.go, operators/rank.go ---------------- *)
(* operators/rank.go:317-379 Take.  [z] is the zero of the array type. *)
Fixpoint take_shape (shape : list Z) (ints x : list Z) : list Z :=
  match ints, x with
  | n :: ns, k :: ks => take_shape (zupd shape k (Z.abs n)) ns ks
  | _, _ => shape
  end.
Fixpoint take_off (rs off : list Z) (ints x : list Z) : list Z :=
  match ints, x with
  | n :: ns, k :: ks =>
      let off' := if n <? 0 then
                    zupd off k (match znth rs k with Some r => r + n | None => 0 end)
                  else off in
      take_off rs off' ns ks
  | _, _ => off
  end.
Definition addv (a b : list Z) : list Z := map (fun p => fst p + snd p) (combine a b).
Definition inbb (ds idx : list Z) : bool :=
  forallb (fun p => (0 <=? snd p) && (snd p <? fst p)) (combine ds idx).
Definition Take {A} (z : A) (ints : list Z) (ar : arr A) (x : option (list Z)) : outcome (arr A) :=
  let rs := dims ar in
  let x := match x with Some x => x | None => zseq (zlen ints) end in
  if negb (zlen ints =? zlen x) then Err else
  (* rs[k], shape[k]: panics for an axis outside the rank *)
  if existsb (fun k => (k <? 0) || (zlen rs <=? k)) x then Panic else
  let shape := take_shape rs ints x in
  let off := take_off rs (zerosZ (length rs)) ints x in
  let* ic := NewIdxConverter rs in
  fill shape (fun idx =>
    let src := addv idx off in
    if inbb rs src then At ar (ic_index ic src) else Ok z).

(* take.go:129-151: the axes x, completed with the missing ones in order. *)
Fixpoint axis_ok (m : list Z) (x : list Z) : outcome (list Z) :=
  match x with
  | [] => Ok m
  | n :: r => if existsb (Z.eqb n) m then axis_ok (filter (fun k => negb (k =? n)) m) r else Err
  end.
Definition complete_axis (rank : Z) (x : list Z) : outcome (list Z) :=
  if rank <? zlen x then Err else
  let* tail := axis_ok (zseq rank) x in Ok (x ++ tail).

(* take.go:168-178: drop count -> equivalent take count for an axis of length m *)
Definition drop_to_take (n m : Z) : Z :=
  if (m <=? n) || (m <=? wrap64 (- n)) then 0 else
  if 0 <? n then n - m else n + m.

(* take.go:75-178 takedrop.  L : IntArray (the domain ToIndexArray passes an
   IntArray variable through without copying).  [x] is the axis list after
   splitAxis (None: no axis).  [intzero] is Int(0).
   The second component is the caller's L after the call:
   - line 165 writes Dims[0] (shared slice) when L is shorter than the rank;
   - lines 170-177 write into Ints, which is L's own slice when its length
     equals the rank. *)
Definition takedrop {A} (z intzero : A) (istake : bool) (L : val Z) (R : val A)
    (x : option (list Z)) : outcome (val A) * val Z :=
  match L with
  | Emp => (Ok R, L)
  | Scal _ => (Panic, L)  (* excluded by the domain *)
  | Arr l =>
    let ints := elems l in
    if 1 <? zlen (dims l) then (Err, L) else
    match R, ints with
    | Emp, [n] => (Ok (Arr (mkArr [Z.abs n] (repeat intzero (Z.to_nat (Z.abs n))))), L)
    | _, _ =>
      let ar := match R with
                | Scal v => mkArr (repeat 1 (length ints)) [v]
                | _ => asArr R
                end in
      let rs := dims ar in
      match complete_axis (zlen rs) (match x with Some x => x | None => [] end) with
      | Err => (Err, L)
      | Panic => (Panic, L)
      | Ok x =>
        if zlen rs <? zlen ints then (Err, L) else
        let short := zlen ints <? zlen rs in
        let missing := skipn (length ints) x in
        let n := if short then
                   ints ++ map (fun k => if istake
                                         then match znth rs k with Some d => d | None => 0 end
                                         else 0) missing
                 else ints in
        let dims' := if short then match dims l with _ :: r => zlen n :: r | [] => [] end
                     else dims l in
        let n' := if istake then n else
                  map (fun p => drop_to_take (fst p)
                         (match znth rs (snd p) with Some d => d | None => 0 end)) (combine n x) in
        let L' := Arr (mkArr dims' (if short then ints else n')) in
        (omap Arr (Take z n' ar (Some x)), L')
      end
    end
  end.
(* take.go:59-64 *)
Definition take {A} (z iz : A) := takedrop z iz true.
Definition drop {A} (z iz : A) := takedrop z iz false.

(* ---------------- comma.go ---------------- *)
(* comma.go:47-78 ravel *)
Definition ravel {A} (R : val A) : val A := Arr (mkArr [sizeOf R] (elemsOf R)).

(* The axis argument of , : absent, an integer, or fractional with its floor. *)
Inductive cataxis := AxNone | AxInt (n : Z) | AxFrac (fl : Z).

(* axis.go:43-117 splitCatAxis *)
Definition splitCatAxis {A} (origin : Z) (L R : val A) (ax : cataxis) : outcome (Z * bool) :=
  match ax with
  | AxNone => match R with
              | Scal _ => Ok (0, false)
              | _ => Ok (zlen (shapeOf R) - 1, false)
              end
  | AxInt n =>
      let m := Z.max (zlen (shapeOf L)) (zlen (shapeOf R)) in
      let n := n - origin in
      if (n <? 0) || (m <=? n) then Err else Ok (n, false)
  | AxFrac f =>
      let m := Z.max (zlen (shapeOf L)) (zlen (shapeOf R)) in
      let n := f - origin in
      if (n <? -1) || (m <? n) then Err else Ok (n, true)
  end.

(* insert v at position x (comma.go:254-259 insert1, 363-371, 117-126) *)
Definition insert (x : Z) (v : Z) (s : list Z) : list Z :=
  firstn (Z.to_nat x) s ++ v :: skipn (Z.to_nat x) s.

(* comma.go:330-396 laminate *)
Definition laminate {A} (L R : val A) (x : Z) : outcome (val A) :=
  match L, R with
  | Scal l, Scal r => if x =? 0 then Ok (Arr (mkArr [2] [l; r])) else Err
  | _, _ =>
    let expand (s : A) (sh : list Z) := mkArr sh (repeat s (Z.to_nat (Prod sh))) in
    let al := match L with Scal l => expand l (shapeOf R) | _ => asArr L end in
    let ar := match R with Scal r => expand r (shapeOf L) | _ => asArr R end in
    let ls := dims al in
    let rs := dims ar in
    if negb (zlen ls =? zlen rs) then Err else
    if negb (forallb (fun p => fst p =? snd p) (combine ls rs)) then Err else
    if (x <? 0) || (zlen ls <? x) then Panic else
    let shape := insert x 2 ls in
    let* ic := NewIdxConverter ls in
    let n := Z.to_nat x in
    omap Arr (fill shape (fun dst =>
      let src := firstn n dst ++ skipn (n + 1) dst in
      let* d := zat dst x in
      if d =? 0 then At al (ic_index ic src) else At ar (ic_index ic src)))
  end.

(* comma.go:278-286: all axes except x must match; sr may be shorter (panic). *)
Fixpoint cat_shape (sl sr : list Z) (x i : Z) : outcome (list Z) :=
  match sl with
  | [] => Ok []
  | l :: ls =>
      match sr with
      | [] => Panic
      | r :: rs =>
          if i =? x then let* t := cat_shape ls rs x (i + 1) in Ok (l + r :: t)
          else if l =? r then let* t := cat_shape ls rs x (i + 1) in Ok (l :: t)
          else Err
      end
  end.

(* comma.go:276-309: the shape check and the copy loop of catenate *)
Definition cat_join {A} (al ar : arr A) (x : Z) : outcome (val A) :=
  let sl := dims al in
  let sr := dims ar in
  let* newshape := cat_shape sl sr x 0 in
  let* split := zat sl x in
  let* lc := NewIdxConverter sl in
  let* rc := NewIdxConverter sr in
  omap Arr (fill newshape (fun dst =>
    let* n := zat dst x in
    if split <=? n then At ar (ic_index rc (zupd dst x (n - split)))
    else At al (ic_index lc dst))).

(* comma.go:190-310 catenate, without the table and list cases (191-199). *)
Definition catenate {A} (origin : Z) (L R : val A) (ax : cataxis) : outcome (val A) :=
  let* xf := splitCatAxis origin L R ax in
  let x := fst xf in
  if snd xf then laminate L R (x + 1) else
  if isArray L && (sizeOf L =? 0) then Ok R else
  if isArray R && (sizeOf R =? 0) then Ok L else
  match L, R with
  | Scal l, Scal r => Ok (Arr (mkArr [2] [l; r]))
  | _, _ =>
    (* 229-236 reshapeScalar; othershape[x] = 1 panics outside the rank *)
    let rsc (s : A) (sh : list Z) : outcome (arr A) :=
      if (x <? 0) || (zlen sh <=? x) then Panic else
      let sh := zupd sh x 1 in Ok (mkArr sh (repeat s (Z.to_nat (Prod sh)))) in
    let* al := match L with Scal l => rsc l (shapeOf R) | _ => Ok (asArr L) end in
    let* ar := match R with Scal r => rsc r (shapeOf L) | _ => Ok (asArr R) end in
    let sl := dims al in
    let sr := dims ar in
    let d := zlen sl - zlen sr in
    if negb (d =? 0) && ((d <? -1) || (2 <? d)) then Err else   (* sic: 2 *)
    let* al := if d =? -1 then
                 if (x <? 0) || (zlen sl <? x) then Panic
                 else Reshape al (insert x 1 sl) else Ok al in
    let* ar := if d =? 1 then
                 if (x <? 0) || (zlen sr <? x) then Panic
                 else Reshape ar (insert x 1 sr) else Ok ar in
    cat_join al ar x
  end.
(* comma.go:398-403 catenateFirst without explicit axis: [A: Int(Origin)] *)
Definition catenateFirst {A} (origin : Z) (L R : val A) : outcome (val A) :=
  catenate origin L R (AxInt origin).

(* comma.go:93-184 ravelWithAxis, integer axis vector x (origin subtracted). *)
Fixpoint consecutive (x : list Z) : bool :=
  match x with
  | a :: ((b :: _) as r) => (a =? b - 1) && consecutive r
  | _ => true
  end.
Definition ravelAxes {A} (z : A) (R : val A) (x : list Z) : outcome (val A) :=
  if negb (consecutive x) then Err else
  match x with
  | [_] => Ok R
  | [] =>
      match R with
      | Scal v => Ok (Arr (mkArr [1] [v]))
      | Emp => Ok (Arr (mkArr [1] [z]))  (* EmptyArray.Reshape([1]), array.go:262 *)
      | Arr a => omap Arr (Reshape a (dims a ++ [1]))
      end
  | x0 :: _ =>
      match R with
      | Scal _ => Err
      | _ =>
        let ar := asArr R in
        let rs := dims ar in
        let* ds := mapM (fun n => zat rs n) x in
        let prod := fold_left Z.mul ds 1 in
        let n0 := Z.to_nat x0 in
        let shape := firstn n0 rs ++ prod :: skipn (n0 + length x) rs in
        omap Arr (Reshape ar shape)
      end
  end.
(* comma.go:93-130, fractional axis: a new axis of length 1 at x *)
Definition ravelFrac {A} (z : A) (origin : Z) (R : val A) (fl : Z) : outcome (val A) :=
  match R with
  | Scal v => let* _ := splitCatAxis origin (@Emp A) R (AxFrac fl) in Ok (Arr (mkArr [1] [v]))
  | _ =>
    let* p := splitCatAxis origin (@Emp A) R (AxFrac fl) in
    let x := fst p + 1 in
    let ar := asArr R in
    if (x <? 0) || (zlen (dims ar) <? x) then Panic else
    match R with
    | Emp => Ok (Arr (mkArr [1] [z]))
    | _ => omap Arr (Reshape ar (insert x 1 (dims ar)))
    end
  end.
(* comma.go:405-423 table (monadic ⍪) *)
Definition table1 {A} (R : val A) : outcome (val A) :=
  match R with
  | Scal v => Ok (Arr (mkArr [1; 1] [v]))
  | Emp => Panic
  | Arr a =>
      match dims a with
      | [] => Panic
      | d0 :: r => omap Arr (Reshape a [d0; fold_left Z.mul r 1])
      end
  end.
