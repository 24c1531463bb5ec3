(* M_Operators.v -- model of apl/operators/{dot,each,power,commute,jot,at,
   rank}.go.  Function operands are effectful (Eff.v): a call may read and
   change the interpreter state S and may fail.  v.Copy() is the identity on
   values (aliasing is the subject of M_Heap). *)
From Verif Require Import Base M_Array M_Structural Eff.

(* apl.NewMixed([]int{n}) with all values assigned *)
Definition vec1 {A} (l : list A) : arr A := mkArr [zlen l] l.

(* ---------------- dot.go ---------------- *)
(* dot.go:98-112 and 131-145: the loop k = inner-1 .. 0 with accumulator v
   (nil before the first iteration).  v.Copy() of a nil value panics. *)
Fixpoint inner_loop {S A} (f g : A -> A -> eff S A) (getl getr : Z -> outcome A) (k : nat) (v : option A)
  : eff S A :=
  match k with
  | O => match v with Some x => eret x | None => epanic end
  | Datatypes.S m =>
      let! x := elift (getl (Z.of_nat m)) in
      let! y := elift (getr (Z.of_nat m)) in
      let! u := g x y in
      match v with
      | None => inner_loop f g getl getr m (Some u)
      | Some w => let! u' := f u w in inner_loop f g getl getr m (Some u')
      end
  end.

(* dot.go:55-153 inner *)
Definition inner {S A} (f g : A -> A -> eff S A) (L R : val A) : eff S (val A) :=
  match L, R with
  | Scal x, Scal y => let! v := g x y in eret (Scal v)              (* 59-63 *)
  | _, _ =>
    let! t :=
      match L, R with
      | Scal x, _ =>                                                (* 66-76 *)
          let rs := shapeOf R in
          match rs with
          | [] => efail
          | r0 :: _ => if r0 =? 0 then efail else
                       if r0 <? 0 then epanic else
                       eret (vec1 (repeat x (Z.to_nat r0)), asArr R)
          end
      | _, Scal y =>                                                (* 77-87 *)
          let ls := shapeOf L in
          match ls with
          | [] => efail
          | l0 :: _ => if l0 =? 0 then efail else
                       let! n := elift (zat ls (zlen ls - 1)) in
                       if n <? 0 then epanic else
                       eret (asArr L, vec1 (repeat y (Z.to_nat n)))
          end
      | _, _ => eret (asArr L, asArr R)
      end in
    let '(al, ar) := t in
    let ls := dims al in
    let rs := dims ar in
    if (zlen ls =? 0) || (zlen rs =? 0) then efail else             (* 92-94 *)
    let! n := elift (zat ls (zlen ls - 1)) in
    let! r0 := elift (zat rs 0) in
    if negb (n =? r0) then efail else
    if (zlen ls =? 1) && (zlen rs =? 1) then                        (* 101-117 *)
      let! v := inner_loop f g (At al) (At ar) (Z.to_nat n) None in eret (Scal v)
    else
      let shape := firstn (length ls - 1) ls ++ skipn 1 rs in
      if Prod shape <? 0 then epanic else
      let! ic := elift (NewIdxConverter shape) in
      let! lic := elift (NewIdxConverter ls) in
      let! ric := elift (NewIdxConverter rs) in
      let split := (length ls - 1)%nat in
      let! l := mapE (fun i =>
          let! idx := elift (ic_indexes ic i) in
          inner_loop f g
            (fun k => At al (ic_index lic (firstn split idx ++ [k])))
            (fun k => At ar (ic_index ric (k :: skipn split idx)))
            (Z.to_nat n) None) (zseq (Prod shape)) in
      eret (Arr (mkArr shape l))
  end.

(* dot.go:162-197 outer.  ToArray makes a scalar a one-element vector
   (domain/array.go:30-31). *)
Definition outer {S A} (g : A -> A -> eff S A) (L R : val A) : eff S (val A) :=
  let al := asArr L in
  let ar := asArr R in
  let ls := dims al in
  let rs := dims ar in
  let shape := ls ++ rs in
  if Prod shape <? 0 then epanic else
  let! lc := elift (NewIdxConverter ls) in
  let! rc := elift (NewIdxConverter rs) in
  let! r := fillE shape (fun dst =>
      let! x := elift (At al (ic_index lc (firstn (length ls) dst))) in
      let! y := elift (At ar (ic_index rc (skipn (length ls) dst))) in
      g x y) in
  eret (Arr r).

(* ---------------- each.go ---------------- *)
(* a result that is an array is refused (each.go:63-65, 176-178) *)
Definition scalar_result {S A} (v : val A) : eff S A :=
  match v with Scal x => eret x | _ => efail end.

(* each.go:37-69 each1, R not a list or channel *)
Definition each1 {S A} (f : A -> eff S (val A)) (R : val A) : eff S (val A) :=
  match R with
  | Scal x => f x
  | _ =>
    let ar := asArr R in
    if zlen (elems ar) =? 0 then eret Emp else
    if Prod (dims ar) <? 0 then epanic else
    let! l := mapE (fun i => let! x := elift (At ar i) in let! v := f x in scalar_result v) (zseq (Prod (dims ar))) in
    eret (Arr (mkArr (dims ar) l))
  end.
(* each.go:71-81 eachList *)
Definition eachList {S A} (f : A -> eff S A) (l : list A) : eff S (list A) := mapE f l.

Fixpoint list_eqb (a b : list Z) : bool :=
  match a, b with
  | [], [] => true
  | x :: r, y :: s => (x =? y) && list_eqb r s
  | _, _ => false
  end.
(* each.go:115-188 each2, no lists or channels *)
Definition each2 {S A} (f : A -> A -> eff S (val A)) (L R : val A) : eff S (val A) :=
  match L, R with
  | Scal x, Scal y => f x y
  | _, _ =>
    if isArray R && (sizeOf R =? 0) then eret Emp else
    if isArray L && (sizeOf L =? 0) then eret Emp else
    if isArray R && isArray L && negb (list_eqb (shapeOf L) (shapeOf R)) then efail else
    let shape := if isArray R then shapeOf R else shapeOf L in
    if Prod shape <? 0 then epanic else
    let! l := mapE (fun i =>
        let! rv := elift (match R with Scal y => Ok y | _ => At (asArr R) i end) in
        let! lv := elift (match L with Scal x => Ok x | _ => At (asArr L) i end) in
        let! v := f lv rv in scalar_result v) (zseq (Prod shape)) in
    eret (Arr (mkArr shape l))
  end.
(* each.go:190-222 eachList2: at least one of L, R is a list; the other may be
   any value, which is then passed whole. *)
Definition eachList2 {S A} (f : A -> A -> eff S A) (L R : A + list A) : eff S (list A) :=
  let size := match L with inr l => zlen l | inl _ => 0 end in
  if (match R with inr r => negb (zlen r =? size) | inl _ => false end) then efail else
  mapE (fun i =>
    let! lv := elift (match L with inr l => zat l i | inl v => Ok v end) in
    let! rv := elift (match R with inr r => zat r i | inl v => Ok v end) in
    f lv rv) (zseq size).

(* ---------------- power.go ---------------- *)
(* power.go:38-44: for i := 0; i < n; i++ *)
Fixpoint power_for {S V} (f : V -> eff S V) (n : nat) (v : V) : eff S V :=
  match n with
  | O => eret v
  | Datatypes.S m => let! v' := f v in power_for f m v'
  end.
(* power.go:24-46: RO an integer *)
Definition power_n {S V} (f : V -> eff S V) (n : Z) (R : V) : eff S V :=
  if n <? 0 then efail else
  if n =? 0 then eret R else power_for f (Z.to_nat n) R.
(* power.go:20 *)
Definition powerlimit : Z := 1000.
(* power.go:47-78: RO a function.  The loop gives up when m > powerlimit at
   its head, m counting from 0: powerlimit+1 iterations are possible. *)
Fixpoint power_loop {S V} (f : V -> eff S V) (g : V -> V -> eff S V) (toIndex : V -> option Z)
    (todo : nat) (r : V) : eff S V :=
  match todo with
  | O => efail
  | Datatypes.S m =>
      let! fR := f r in
      let! v := g fR r in
      match toIndex v with
      | None => efail
      | Some n => if n =? 1 then eret fR else power_loop f g toIndex m fR
      end
  end.
Definition power_f {S V} (f : V -> eff S V) (g : V -> V -> eff S V) (toIndex : V -> option Z) (R : V) : eff S V :=
  power_loop f g toIndex (Z.to_nat (powerlimit + 1)) R.

(* ---------------- commute.go, jot.go ---------------- *)
(* a function value is ambivalent: the left argument may be missing *)
Definition afun (S V : Type) : Type := option V -> V -> eff S V.
(* commute.go:18-27 *)
Definition commute {S V} (f : afun S V) : afun S V := fun L R =>
  let L := match L with Some l => l | None => R end in
  f (Some R) L.
(* an operand of ∘ is a function or a value *)
Inductive operand (S V : Type) := OFun (f : afun S V) | OVal (v : V).
Arguments OFun {S V} f.
Arguments OVal {S V} v.
(* jot.go:19-52 *)
Definition compose {S V} (f g : operand S V) : afun S V := fun L R =>
  match L with
  | None =>
      match f, g with
      | OFun fn, OFun gn => let! v := gn None R in fn None v
      | OVal a, OFun gn => gn (Some a) R
      | OFun fn, OVal x => fn (Some R) x
      | OVal _, OVal _ => efail
      end
  | Some l =>
      match f, g with
      | OFun fn, OFun gn => let! v := gn None R in fn (Some l) v
      | _, _ => efail
      end
  end.

(* ---------------- at.go ---------------- *)
Inductive selector (S A : Type) := SelFn (g : val A -> eff S (val A)) | SelIdx (g : arr Z).
Inductive replacer (S A : Type) := RepFn (f : arr A -> eff S (val A)) | RepVal (v : val A).
Arguments SelFn {S A} g.
Arguments SelIdx {S A} g.
Arguments RepFn {S A} f.
Arguments RepVal {S A} v.

(* at.go:71-80: mask[off+i] = true for i < n *)
Fixpoint set_true (mask : list bool) (off : Z) (n : nat) : list bool :=
  match n with
  | O => mask
  | Datatypes.S m => set_true (zupd mask off true) (off + 1) m
  end.
Fixpoint mask_idx (origin d n : Z) (gi : list Z) (mask : list bool) : outcome (list bool) :=
  match gi with
  | [] => Ok mask
  | g :: r =>
      let major := g - origin in
      if (major <? 0) || (d <=? major) then Err
      else mask_idx origin d n r (set_true mask (n * major) (Z.to_nat n))
  end.
(* at.go:28-84: the mask, and the shape of the selection for an index list *)
Definition at_mask {S A} (toBool : A -> option bool) (origin : Z) (ar : arr A) (R : val A) (sel : selector S A)
  : eff S (list bool * option (list Z)) :=
  let rs := dims ar in
  match sel with
  | SelFn g =>
      let! v := g R in
      match v with
      | Scal _ => efail
      | _ =>
        if negb (sizeOf v =? zlen (elems ar)) then efail else
        let! m := elift (mapM (fun x => match toBool x with Some b => Ok b | None => Err end) (elemsOf v)) in
        eret (m, None)
      end
  | SelIdx gi =>
      if negb (zlen (dims gi) =? 1) then efail else
      let! d := elift (zat rs 0) in                (* rs[0] panics for EmptyArray *)
      if d =? 0 then epanic else                   (* division by zero *)
      let n := Z.quot (zlen (elems ar)) d in
      let! m := elift (mask_idx origin d n (elems gi) (repeat false (length (elems ar)))) in
      let! g0 := elift (zat (dims gi) 0) in
      eret (m, Some (zupd rs 0 g0))
  end.
(* the elements of l at the true positions *)
Fixpoint masked {A} (m : list bool) (l : list A) : list A :=
  match m, l with
  | b :: mr, x :: r => if b then x :: masked mr r else masked mr r
  | _, _ => []
  end.
(* at.go:137-149: the final loop *)
Fixpoint at_merge {A} (m : list bool) (repl l : list A) : outcome (list A) :=
  match m, l with
  | b :: mr, x :: r =>
      if b then match repl with
                | y :: ry => omap (cons y) (at_merge mr ry r)
                | [] => Panic
                end
      else omap (cons x) (at_merge mr repl r)
  | _, _ => Ok []
  end.
(* re.Set(n, ..) into a fresh array, errors ignored *)
Definition overwrite {A} (base vals : list A) : list A :=
  firstn (length base) vals ++ skipn (length vals) base.
(* at.go:19-153 at *)
Definition at_op {S A} (zero : A) (toBool : A -> option bool) (origin : Z)
    (rep : replacer S A) (sel : selector S A) (R : val A) : eff S (val A) :=
  let R1 := match R with Scal x => Arr (vec1 [x]) | _ => R end in
  let ar := asArr R1 in
  let! t := at_mask toBool origin ar R1 sel in
  let '(mask, replshape) := t in
  let selected := masked mask (elems ar) in
  let! vr :=
    match rep with
    | RepFn f =>
        let shape := match replshape with Some s => s | None => [zlen selected] end in
        if Prod shape <? 0 then epanic else
        f (mkArr shape (overwrite (repeat zero (Z.to_nat (Prod shape))) selected))
    | RepVal v => eret v
    end in
  let re := elemsOf vr in
  let! repl := elift (
    match re with
    | [x] => Ok (repeat x (length selected))
    | _ => if zlen re =? zlen selected then Ok re else Err
    end) in
  let! l := elift (at_merge mask repl (elems ar)) in
  eret (Arr (mkArr (dims ar) l)).

(* ---------------- rank.go ---------------- *)
(* rank.go:46-58 *)
Definition rank_pqr (ai : list Z) : option (Z * Z * Z) :=
  match ai with
  | [x] => Some (x, x, x)
  | [x; y] => Some (y, x, y)
  | [x; y; z] => Some (x, y, z)
  | _ => None
  end.
(* rank.go:74-96 subcell *)
Definition subcell {A} (x : arr A) (rank n : Z) : outcome (val A) :=
  if rank =? 0 then omap Scal (At x n) else
  let shape := dims x in
  if (rank <? 0) || (zlen shape <? rank) then Err else
  let* d := zat shape (zlen shape - 1 - rank) in
  if (n <? 0) || (d <? n) then Err else
  let subshape := skipn (length shape - Z.to_nat rank) shape in
  let m := Prod subshape in
  if m <? 0 then Panic else
  let* l := mapM (fun i => At x (n * m + i)) (zseq m) in
  Ok (Arr (mkArr subshape l)).
(* rank.go:99-103 subcells and 170 frame[:len(frame)-p]: the slice panics
   when p exceeds the rank. *)
Definition rank_frame {A} (x : arr A) (p : Z) : outcome (list Z) :=
  let k := zlen (dims x) - p in
  if (k <? 0) || (zlen (dims x) <? k) then Panic else Ok (firstn (Z.to_nat k) (dims x)).
(* rank.go:194-208: the common shape of the results *)
Fixpoint zmax2 (a b : list Z) : list Z :=
  match a, b with
  | x :: r, y :: s => (if x <? y then y else x) :: zmax2 r s
  | _, _ => []
  end.
Definition common_step (common s : list Z) : list Z :=
  let d := (length s - length common)%nat in
  let c := zerosZ d ++ common in
  let k := (length c - length s)%nat in
  firstn k c ++ zmax2 (skipn k c) s.
Definition common_shape {A} (rs : list (val A)) : list Z :=
  fold_left (fun c v => match v with Arr a => common_step c (dims a) | _ => c end) rs [].
(* rank.go:209-253: bring a result to the common shape.  EmptyArray results
   are not modelled (a nested empty result). *)
Definition conform {A} (zero : A) (common : list Z) (v : val A) : outcome (list A) :=
  match v with
  | Scal x => if 0 <? zlen common then
                if Prod common <? 0 then Panic else Ok (repeat x (Z.to_nat (Prod common)))
              else Ok [x]
  | Arr a =>
      let d := (length common - length (dims a))%nat in
      let shape := repeat 1 d ++ dims a in
      let* vr := Reshape a shape in
      if list_eqb common shape then Ok (elems vr) else omap elems (Take zero common vr None)
  | Emp => Err
  end.
(* rank.go:24-286 rank, monadic, R an array; [f] is applied to cells. *)
Definition rank1 {S A} (zero : A) (f : val A -> eff S (val A)) (ai : list Z) (R : val A) : eff S (val A) :=
  match rank_pqr ai with
  | None => efail
  | Some (p, q, r) =>
    match R with
    | Scal _ => efail
    | _ =>
      let ar := asArr R in
      let rs := dims ar in
      let p := if p <? 0 then p + zlen rs else p in
      if (p <? 0) || (zlen rs <? r) then efail else
      let! frame := elift (rank_frame ar p) in
      let! results := mapE (fun i => let! s := elift (subcell ar p i) in f s) (zseq (Prod frame)) in
      let common := common_shape results in
      let! cells := elift (mapM (conform zero common) results) in
      let resdims := frame ++ common in
      if Prod resdims <? 0 then epanic else
      match common with
      | [] => if negb (zlen results =? Prod resdims) then efail
              else eret (Arr (mkArr resdims (concat cells)))
      | _ =>
        let! l := elift (mapM (fun c => mapM (zat c) (zseq (Prod common))) cells) in
        eret (Arr (mkArr resdims (concat l)))
      end
    end
  end.
