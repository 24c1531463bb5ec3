(* M_Reduce.v -- model of apl/operators/reduce.go: reduce, scan, n-wise
   reduction, replicate, compress, expand and the tack reductions.

   Elements are of an arbitrary type [A] (apl.Value); the function operand is
   an effectful f : A -> A -> eff S A (f.Call may use and change the
   interpreter).  The final UnifyArray is the identity (representation only).
   The Axis bracket form (splitAxis) is modelled by passing the axis. *)
From Verif Require Import Base M_Array M_Structural Eff.

(* reduce.go:653-663 reduce: starts with the last value and walks to the
   front.  vec[len-1] panics for an empty slice. *)
Fixpoint reduce_loop {S A} (f : A -> A -> eff S A) (rest : list A) (v : A) : eff S A :=
  match rest with
  | [] => eret v
  | x :: r => let! v' := f x v in reduce_loop f r v'
  end.
Definition reduce {S A} (f : A -> A -> eff S A) (vec : list A) : eff S A :=
  match rev vec with
  | [] => epanic
  | v :: rest => reduce_loop f rest v
  end.

(* the values ar.At(ic.Index(sidx)) for sidx[axis] = 0..n-1 *)
Definition read_line {A} (ar : arr A) (ic idx : list Z) (axis n : Z) : outcome (list A) :=
  mapM (fun i => At ar (ic_index ic (zupd idx axis i))) (zseq n).

(* identityItem(f): [ident], see M_Identity.
   reduce.go:112-239 reduct for l = nil and r not a channel, table or
   object.  Reshape is that of Mixed/Bool/StringArray (IntArray.Reshape
   differs for arrays without elements, where it gives EmptyArray). *)
Definition reduct {S A} (f : A -> A -> eff S A) (ident : option A) (R : val A) (axis : Z)
  : eff S (val A) :=
  match R with
  | Scal x => eret (Scal x)                                     (* 148-151 *)
  | _ =>
    let ar := asArr R in
    let shape := dims ar in
    if (match shape with [d] => d =? 1 | _ => false end) then      (* 153-155 *)
      let! x := elift (At ar 0) in eret (Scal x)
    else if zlen shape =? 0 then                                  (* 157-163 *)
      match ident with None => efail | Some i => eret (Scal i) end
    else
    let axis := if axis <? 0 then zlen shape + axis else axis in
    if (axis <? 0) || (zlen shape <=? axis) then efail else
    let! n := elift (zat shape axis) in
    let ds := firstn (Z.to_nat axis) shape ++ skipn (Z.to_nat axis + 1) shape in
    if n =? 1 then                                                (* 186-192 *)
      let! r := elift (Reshape ar ds) in eret (Arr r)
    else if n =? 0 then                                           (* 193-201 *)
      match ident with
      | None => efail
      | Some i => let! r := elift (Reshape (mkArr [1] [i]) ds) in eret (Arr r)
      end
    else if zlen shape =? 1 then                                  (* 204-211 *)
      let! vec := elift (mapM (At ar) (zseq n)) in
      let! v := reduce f vec in eret (Scal v)
    else                                                          (* 214-238 *)
      let! ic := elift (NewIdxConverter shape) in
      let! r := fillE ds (fun tidx =>
        let a := Z.to_nat axis in
        let sidx := firstn a tidx ++ 0 :: skipn a tidx in
        let! vec := elift (read_line ar ic sidx axis n) in
        reduce f vec) in
      eret (Arr r)
  end.

(* reduce.go:750-762 scan: res[0] = vec[0] panics for an empty slice. *)
Definition scan {S A} (f : A -> A -> eff S A) (vec : list A) : eff S (list A) :=
  match vec with
  | [] => epanic
  | x :: _ =>
      let! r := mapE (fun i => reduce f (firstn (Z.to_nat (i + 2)) vec)) (zseq (zlen vec - 1)) in
      eret (x :: r)
  end.

(* res.Values[dc.Index(dst)] = v, with dst[axis] = j: panics outside. *)
Definition setP {A} (res : list A) (i : Z) (v : A) : outcome (list A) :=
  match znth res i with Some _ => Ok (zupd res i v) | None => Panic end.
Fixpoint write_line {A} (set : list A -> Z -> A -> outcome (list A)) (dc dst : list Z) (axis : Z)
    (ps : list (Z * A)) (res : list A) : outcome (list A) :=
  match ps with
  | [] => Ok res
  | (j, v) :: r =>
      let* res' := set res (ic_index dc (zupd dst axis j)) v in
      write_line set dc dst axis r res'
  end.
(* The loop shared by scan (304-327), n-wise (848-877) and Expand (525-554):
   for every line along the axis, compute what to write and write it. *)
Fixpoint lines_loop {S A} (n : nat) (idx lidx : list Z) (set : list A -> Z -> A -> outcome (list A))
    (dc : list Z) (axis : Z) (compute : list Z -> eff S (list (Z * A))) (res : list A)
  : eff S (list A) :=
  match n with
  | O => eret res
  | Datatypes.S m =>
      let! ps := compute idx in
      let! res' := elift (write_line set dc idx axis ps res) in
      lines_loop m (IncArrayIndex idx lidx) lidx set dc axis compute res'
  end.

(* (0,v0), (1,v1), ... *)
Definition enum {A} (l : list A) : list (Z * A) := combine (zseq (zlen l)) l.

(* reduce.go:248-330 scanfunc for L = nil and R not a table, object or
   channel.  [nil] is the initial content of NewMixed. *)
Definition scanfunc {S A} (nil : A) (f : A -> A -> eff S A) (R : val A) (axis : Z)
  : eff S (val A) :=
  match R with
  | Scal x => eret (Scal x)
  | Emp => eret Emp
  | Arr ar =>
    let ds := dims ar in
    if zlen ds =? 0 then eret Emp else
    let axis := if axis <? 0 then zlen ds + axis else axis in
    if (axis <? 0) || (zlen ds <=? axis) then efail else
    if zlen ds =? 1 then
      let! n := elift (zat ds 0) in
      let! vec := elift (mapM (At ar) (zseq n)) in
      let! v := scan f vec in
      eret (Arr (mkArr [zlen v] v))
    else
      let lidx := zupd ds axis 1 in
      let! ic := elift (NewIdxConverter ds) in
      let! n := elift (zat ds axis) in
      if Prod ds <? 0 then epanic else
      let! l := lines_loop (Z.to_nat (Prod lidx)) (zerosZ (length ds)) lidx setP ic axis
        (fun idx =>
           let! vec := elift (read_line ar ic idx axis n) in
           let! vals := scan f vec in
           eret (enum vals))
        (repeat nil (Z.to_nat (Prod ds))) in
      eret (Arr (mkArr ds l))
  end.

(* ---------------- n-wise reduction ---------------- *)
(* reduce.go:883-893: the plain window reduction (no Copy). *)
Definition win {S A} (f : A -> A -> eff S A) (x : list A) : eff S A := reduce f x.

(* reduce.go:935-941 with the plain reduction: vec is overwritten from the
   front while the windows are read. *)
Fixpoint nwise_plain {S A} (f : A -> A -> eff S A) (n : Z) (todo : nat) (i : Z) (vec : list A)
  : eff S (list A) :=
  match todo with
  | O => eret vec
  | Datatypes.S m =>
      let! v := win f (firstn (Z.to_nat n) (skipn (Z.to_nat i) vec)) in
      nwise_plain f n m (i + 1) (zupd vec i v)
  end.

(* reduce.go:896-932: moving window with an accumulator.  State: the
   accumulator, the window buffer and the slot p. *)
Fixpoint acc_init {S A} (f : A -> A -> eff S A) (acc : A) (xs : list A) : eff S A :=
  match xs with
  | [] => eret acc
  | x :: r => let! a := f acc x in acc_init f a r
  end.
Definition fast_step {S A} (f g : A -> A -> eff S A) (st : option (A * list A * Z)) (x : list A)
  : eff S (A * list A * Z) :=
  match st with
  | None =>
      match x with
      | [] => epanic
      | x0 :: xs => let! acc := acc_init f x0 xs in eret (acc, x, 0)
      end
  | Some (acc, window, p) =>
      let! xnew := elift (zat x (zlen x - 1)) in
      let! old := elift (zat window p) in
      let! acc1 := g acc old in
      let! acc2 := f acc1 xnew in
      let p1 := p + 1 in
      eret (acc2, zupd window p xnew, if p1 =? zlen window then 0 else p1)
  end.
Fixpoint nwise_fast {S A} (f g : A -> A -> eff S A) (n : Z) (todo : nat) (i : Z)
    (st : option (A * list A * Z)) (vec : list A) : eff S (list A) :=
  match todo with
  | O => eret vec
  | Datatypes.S m =>
      let! st' := fast_step f g st (firstn (Z.to_nat n) (skipn (Z.to_nat i) vec)) in
      nwise_fast f g n m (i + 1) (Some st') (zupd vec i (fst (fst st')))
  end.
(* reduce.go:883-943 applyNwise; g is the inverse for + and ×. *)
Definition applyNwise {S A} (f : A -> A -> eff S A) (g : option (A -> A -> eff S A)) (n : Z) (vec : list A)
  : eff S (list A) :=
  let todo := Z.to_nat (zlen vec - n + 1) in
  match g with
  | Some g => if 3 <? n then nwise_fast f g n todo 0 None vec
              else nwise_plain f n todo 0 vec
  | None => nwise_plain f n todo 0 vec
  end.

(* reduce.go:766-881 nwise.  [L] is the left argument as an integer. *)
Definition nwise {S A} (nil zero : A) (f : A -> A -> eff S A) (ident : option A)
    (g : option (A -> A -> eff S A)) (L : Z) (R : val A) (axis : Z) : eff S (val A) :=
  let neg := L <? 0 in
  let n := if neg then - L else L in
  match R with
  | Scal _ => efail
  | Emp => if n =? 0 then eret (Arr (mkArr [1] [zero]))
           else if n =? 1 then eret Emp else efail
  | Arr ar =>
    let rs := dims ar in
    let axis := if axis =? -1 then zlen rs + axis else axis in
    if (axis <? 0) || (zlen rs <=? axis) then efail else
    let! axlen := elift (zat rs axis) in
    let shape := zupd rs axis (axlen - (n - 1)) in
    if 2 <? n - axlen then efail else
    if Prod shape <? 0 then epanic else
    if Prod shape =? 0 then eret (Arr (mkArr shape [])) else
    if n =? 0 then
      match ident with
      | None => efail
      | Some i => eret (Arr (mkArr shape (repeat i (Z.to_nat (Prod shape)))))
      end
    else
    let xs := zupd rs axis 1 in
    let! ic := elift (NewIdxConverter rs) in
    let! dc := elift (NewIdxConverter shape) in
    let! l := lines_loop (Z.to_nat (Prod xs)) (zerosZ (length rs)) xs setP dc axis
      (fun idx =>
         let! vec := elift (mapM (fun k =>
             At ar (ic_index ic (zupd idx axis (if neg then axlen - 1 - k else k)))) (zseq axlen)) in
         let! vec' := applyNwise f g n vec in
         let! out := elift (mapM (zat vec') (zseq (axlen - n + 1))) in
         eret (map (fun kv => (if neg then axlen - n - fst kv else fst kv, snd kv)) (enum out)))
      (repeat nil (Z.to_nat (Prod shape))) in
    eret (Arr (mkArr shape l))
  end.

(* ---------------- replicate, compress, expand ---------------- *)
(* reduce.go:561-623 commonReplExp: L is an IntArray (vector), R a scalar or
   an array.  MakeArray + Set are modelled by [fill]. *)
Definition commonReplExp {A} (L : arr Z) (R : val A) (axis : Z) : outcome (list Z * arr A * Z) :=
  if negb (zlen (dims L) =? 1) then Err else
  let ai := elems L in
  let ar := asArr R in
  let rs := dims ar in
  if zlen rs =? 0 then Ok (ai, ar, 0) else
  let axis := if axis <? 0 then zlen rs + axis else axis in
  if axis <? 0 then Err else
  let* n := zat rs axis in
  let* ar :=
    if (n =? 1) && (1 <? zlen ai) then
      let shape := zupd rs axis (zlen ai) in
      let* ic := NewIdxConverter rs in
      fill shape (fun dst => At ar (ic_index ic (zupd dst axis 0)))
    else Ok ar in
  Ok (ai, ar, axis).

(* reduce.go:627-651 compress: one pass over R in ravel order, keeping the
   elements whose coordinate on the axis is marked. *)
Fixpoint compress_loop {A} (ai : list Z) (rs : list Z) (axis : Z) (src : list A) (ridx : list Z)
  : outcome (list A) :=
  match src with
  | [] => Ok []
  | x :: r =>
      let* b := zat ridx axis in
      let* k := zat ai b in
      let* rest := compress_loop ai rs axis r (IncArrayIndex ridx rs) in
      Ok (if k =? 1 then x :: rest else rest)
  end.
Definition zsum (l : list Z) : Z := fold_left Z.add l 0.
Definition compress {A} (ai : list Z) (ar : arr A) (axis : Z) : outcome (arr A) :=
  let rs := dims ar in
  let shape := zupd rs axis (zsum ai) in
  let* l := compress_loop ai rs axis (elems ar) (zerosZ (length rs)) in
  Ok (mkArr shape l).

(* reduce.go:416-433: axismap; -1 marks a fill position *)
Fixpoint axismap (k : Z) (ai : list Z) : list Z :=
  match ai with
  | [] => []
  | n :: r => (if 0 <? n then repeat k (Z.to_nat n)
               else repeat (-1) (Z.to_nat (- n))) ++ axismap (k + 1) r
  end.

(* reduce.go:379-452 Replicate *)
Definition Replicate {A} (zero : A) (L : arr Z) (R : val A) (axis : Z) : outcome (val A) :=
  let* t := commonReplExp L R axis in
  let '(ai, ar, axis) := t in
  let rs := dims ar in
  let* l0 := zat (dims L) 0 in
  let* n := zat rs axis in
  let* t :=
    if (l0 =? 1) && (1 <? n) then
      let* a0 := zat ai 0 in Ok (repeat a0 (Z.to_nat n), n)
    else Ok (ai, l0) in
  let '(ai, l0) := t in
  if negb (l0 =? n) then Err else
  if forallb (fun k => (0 <=? k) && (k <=? 1)) ai then omap Arr (compress ai ar axis) else
  let am := axismap 0 ai in
  let shape := zupd rs axis (zlen am) in
  let* ic := NewIdxConverter rs in
  omap Arr (fill shape (fun dst =>
    let* k := zat dst axis in
    let* m := zat am k in
    if m =? -1 then Ok zero else At ar (ic_index ic (zupd dst axis m)))).

(* reduce.go:505-517: the axis length +/1⌈|L *)
Definition expand_step (s k : Z) : Z :=
  let k := if k <? 0 then - k else k in if 1 <? k then s + k else s + 1.
Definition expand_len (ai : list Z) : Z := fold_left expand_step ai 0.
(* reduce.go:530-552: what is written on one line; j counts the positive
   entries.  The values are read from R (panics outside). *)
Fixpoint expand_line {A} (zero : A) (get : Z -> outcome A) (ai : list Z) (j d : Z) : outcome (list (Z * A)) :=
  match ai with
  | [] => Ok []
  | k :: r =>
      if 0 <? k then
        let* x := get j in
        let* rest := expand_line zero get r (j + 1) (d + k) in
        Ok (map (fun m => (d + m, x)) (zseq k) ++ rest)
      else if k =? 0 then
        let* rest := expand_line zero get r j (d + 1) in
        Ok ((d, zero) :: rest)
      else
        let* rest := expand_line zero get r j (d + - k) in
        Ok (map (fun m => (d + m, zero)) (zseq (- k)) ++ rest)
  end.
(* res.Set with the error ignored *)
Definition setI {A} (res : list A) (i : Z) (v : A) : outcome (list A) := Ok (zupd res i v).

(* reduce.go:467-556 Expand *)
Definition Expand {A} (zero : A) (L : val Z) (R : val A) (axis : Z) : outcome (val A) :=
  match L with
  | Scal _ => Panic   (* the operand domain has made L an index array *)
  | Emp =>                                                       (* 469-485 *)
      match R with
      | Scal _ => Ok Emp
      | _ =>
        let ar := asArr R in
        let rs := dims ar in
        let ax := if axis <? 0 then zlen rs + axis else axis in
        if (0 <=? ax) && (ax <=? zlen rs) then
          let* n := zat rs ax in
          if n =? 0 then Ok (Arr (mkArr rs [])) else Err
        else Err
      end
  | Arr L =>
      let* t := commonReplExp L R axis in
      let '(ai, ar, axis) := t in
      match R with
      | Emp =>                                                   (* 494-500 *)
          match ai with [0] => Ok (Arr (mkArr (dims L) [zero])) | _ => Err end
      | _ =>
        let rs := dims ar in
        let sum := expand_len ai in
        let shape := zupd rs axis sum in
        let short := zupd shape axis 1 in
        if Prod shape <? 0 then Panic else
        let* ic := NewIdxConverter rs in
        let* dic := NewIdxConverter shape in
        let* sa := zat shape axis in
        if sa =? 0 then Panic else      (* division by zero *)
        let* l := fst (lines_loop (Z.to_nat (Z.quot (Prod shape) sa)) (zerosZ (length shape)) short setI dic axis
          (fun idx => elift (expand_line zero (fun j => At ar (ic_index ic (zupd idx axis j))) ai 0 0))
          (repeat zero (Z.to_nat (Prod shape))) tt) in
        Ok (Arr (mkArr shape l))
      end
  end.

(* ---------------- tack reductions ---------------- *)
(* reduce.go:946-999 reduceTack (first = true for the left tack). *)
Fixpoint tack_loop {A} (first : bool) (inner : Z) (src : list A) (n : Z) : list A :=
  match src with
  | [] => []
  | x :: r =>
      let rest := tack_loop first inner r (if n + 1 =? inner then 0 else n + 1) in
      if (if first then n =? 0 else n =? inner - 1) then x :: rest else rest
  end.
(* z: the element a new array is filled with; it remains when the last axis is empty *)
Definition reduceTack {A} (z : A) (first : bool) (R : val A) : outcome (val A) :=
  match R with
  | Scal x => Ok (Scal x)
  | Emp => Ok Emp
  | Arr ar =>
    let shape := dims ar in
    if zlen shape =? 0 then Ok R else
    if zlen shape =? 1 then
      let* n := zat shape 0 in
      if n <=? 0 then Ok Emp else
      let* v := At ar (if first then 0 else n - 1) in Ok (Scal v)
    else
      let* inner := zat shape (zlen shape - 1) in
      let ns := firstn (length shape - 1) shape in
      let r := tack_loop first inner (elems ar) 0 in
      Ok (Arr (mkArr ns (r ++ repeat z (Z.to_nat (Prod ns - zlen r)))))
  end.
