(* M_Stencil.v -- model of the stencil operator: apl/operators/stencil.go, and of roll and deal:
   apl/primitives/query.go.  v.Copy() is the identity on values (aliasing is the subject of
   M_Heap). *)
From Verif Require Import Base M_Array M_Structural Eff M_Operators.

(* stencil.go:103 dst[d] = idx[d] + sdx[d] - tmp.Dims[d]/2 for all axes *)
Fixpoint st_dst (idx sdx w : list Z) : list Z :=
  match idx, sdx, w with
  | i :: idx', s :: sdx', d :: w' => (i + s - Z.quot d 2) :: st_dst idx' sdx' w'
  | _, _, _ => []
  end.
(* stencil.go:104-106 is the cell outside the array on any axis *)
Fixpoint st_out (dst rs : list Z) : bool :=
  match dst, rs with
  | x :: dst', r :: rs' => (x <? 0) || (r <=? x) || st_out dst' rs'
  | _, _ => false
  end.
(* stencil.go:107-113 the left argument: one axis, all axes *)
Definition st_vec1 (d x v : Z) : Z :=
  if (x <? 0) && (v <? - x) then - x
  else let y := x + 1 - d in
       if (0 <? y) && (- y <? v) then - y else v.
Fixpoint st_vec (w dst vec : list Z) : list Z :=
  match w, dst, vec with
  | d :: w', x :: dst', v :: vec' => st_vec1 d x v :: st_vec w' dst' vec'
  | _, _, _ => []
  end.

Section Stencil.
  Context {St A : Type} (zero : A).

  (* stencil.go:100-121 the window around idx: its values, the left argument and the odometer
     sdx, that is used for the next window as well *)
  Fixpoint st_loop (n : nat) (ar : arr A) (ic idx w sdx vec : list Z) : outcome (list A * list Z * list Z) :=
    match n with
    | O => Ok ([], vec, sdx)
    | S n' =>
        let dst := st_dst idx sdx w in
        let* x := if st_out dst (dims ar) then Ok zero else At ar (ic_index ic dst) in
        let* r := st_loop n' ar ic idx w (IncArrayIndex sdx w) (st_vec w dst vec) in
        let '(l, vec, sdx) := r in
        Ok (x :: l, vec, sdx)
    end.
  (* stencil.go:92-136 all elements of R *)
  Fixpoint st_cells (f : arr Z -> arr A -> eff St (val A)) (ar : arr A) (ic w sdx : list Z) (is : list Z) : eff St (list A) :=
    match is with
    | [] => eret []
    | i :: is' =>
        let! idx := elift (ic_indexes ic i) in
        let! t := elift (st_loop (Z.to_nat (Prod w)) ar ic idx w sdx (zerosZ (length (dims ar)))) in
        let '(l, vec, sdx) := t in
        let! v := f (mkArr [zlen (dims ar)] vec) (mkArr w l) in
        let! x := scalar_result v in
        let! r := st_cells f ar ic w sdx is' in
        eret (x :: r)
    end.
  (* stencil.go:52-69 the first row of the 2 by rank matrix of ones, that is overwritten with the
     values of RO *)
  Fixpoint st_overwrite (def : list Z) (k : Z) (vs : list Z) : outcome (list Z) :=
    match vs with
    | [] => Ok def
    | v :: vs' => if (0 <=? k) && (k <? zlen def) then st_overwrite (zupd def k v) (k + 1) vs' else Panic
    end.
  Definition st_window (rank : nat) (RO : arr Z) : outcome (list Z) :=
    let* def := st_overwrite (repeat 1 (2 * rank)) 0 (elems RO) in
    Ok (firstn rank def).
  (* stencil.go:21-140 stencil.  RO: None is the empty array.  The position ic.Index(idx) of the
     i-th value of RO, with idx counted in the shape of RO, is i. *)
  Definition stencil (f : arr Z -> arr A -> eff St (val A)) (RO : option (arr Z)) (R : val A) : eff St (val A) :=
    match R with
    | Scal _ => efail
    | Emp => match RO with
             | None => epanic
             | Some ro => if (2 <? zlen (dims ro)) || (0 <? last (dims ro) 0) then efail else epanic
             end
    | Arr ar =>
        match RO with
        | None => epanic
        | Some ro =>
            if 2 <? zlen (dims ro) then efail else
            if zlen (dims ar) <? last (dims ro) 0 then efail else
            let! w := elift (st_window (length (dims ar)) ro) in
            if Prod w <? 0 then epanic else
            if Prod w =? 0 then efail else
            let! ic := elift (NewIdxConverter (dims ar)) in
            let! l := st_cells f ar ic w (zerosZ (length w)) (zseq (zlen (elems ar))) in
            eret (Arr (mkArr (dims ar) l))
        end
    end.
End Stencil.

(* ---------- query.go ---------- *)
(* query.go:86-104 deal; p is the result of rand.Perm(m), which is called for m >= 1 only *)
Definition deal (origin n m : Z) (p : list Z) : outcome (arr Z) :=
  if (n <=? 0) || (m <? n) then Err
  else Ok (mkArr [n] (map (fun x => x + origin) (firstn (Z.to_nat n) p))).

Section Roll.
  (* numbers; the generator: Intn of a positive number, Float64, NormFloat64 scaled by a number *)
  Context {S A : Type} (isNumber isNegFloat isComplex : A -> bool) (toIndex : A -> option Z) (ofInt : Z -> A)
          (intn : Z -> S -> Z * S) (float64 : S -> A * S) (norm : A -> S -> A * S).
  Definition draw {B} (g : S -> B * S) : eff S B := fun s => let (x, s') := g s in (Ok x, s').
  (* query.go:61-83 rollNumber.  A number that is no index gives the scale 0 (Sic: ?3.5 is 0) *)
  Definition rollNumber (origin : Z) (n : A) : eff S A :=
    if isNegFloat n then draw (norm n) else
    if isComplex n then draw (norm n) else
    match toIndex n with
    | None => draw (norm (ofInt 0))
    | Some m =>
        if m <? 0 then draw (norm (ofInt m)) else
        if m =? 0 then draw float64 else
        let! i := draw (intn m) in eret (ofInt (i + origin))
    end.
  (* query.go:28-58 roll *)
  Definition roll (origin : Z) (R : val A) : eff S (val A) :=
    let one x := if isNumber x then rollNumber origin x else efail in
    match R with
    | Scal x => let! y := one x in eret (Scal y)
    | Emp => eret Emp
    | Arr a =>
        if zlen (elems a) =? 0 then eret Emp else
        let! l := mapE one (elems a) in eret (Arr (mkArr (dims a) l))
    end.
End Roll.
