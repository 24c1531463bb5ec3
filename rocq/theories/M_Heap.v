(* M_Heap.v -- assignment with the sharing of Go's slices, maps and pointers:
   Copy (apl/array.go, list.go, object.go), assignment (apl/operators/assign.go), the
   binding of the arguments of a lambda (apl/lambda.go).

   An array, a list or a dictionary is a cell of the heap; a value is an atom or a
   reference to a cell.  Assigning a Go value of these types copies the reference.
   Simplifications: the header (element type, shape, keys) is part of the cell; the
   values of a dictionary are kept in the order of its keys, which are distinct
   (C55); EmptyArray is an array cell without elements; tables are not modelled here;
   BoolArray.Set and StringArray.Set check their bounds (C04 shows that they
   do not for an index equal to the size, which no selection returns).
   Functions that are called by a modified assignment may allocate; the functions that
   assign variables themselves are excluded by the theorems, not by the model. *)
From Verif Require Import Base Eff.
From Coq Require Import List ZArith Bool.
Import ListNotations.
Open Scope Z_scope.

(* which types of uniform arrays are copied by reference: their Copy method returns the
   receiver.  numbers/complexs.go:19-23: ComplexArray.Copy makes a copy, and returns the
   receiver; image.go:42: Image.Copy returns the receiver. *)
Class ByRef (U : Type) := byref : U -> bool.

Section Heap.
  (* atoms: numbers, strings, functions, channels; element types of uniform arrays *)
  Context {A U : Type} {BR : ByRef U}.
  Inductive hval := HAtom (a : A) | HRef (l : nat).
  (* HArr None: MixedArray (array.go:203-206); HArr (Some u): IntArray, BoolArray, StringArray,
     FloatArray, ...; HLst: List (list.go:10); HDct: Dict (object.go:48-51) *)
  Inductive hdr := HArr (u : option U) (dims : list Z) | HLst | HDct (keys : list A).
  Record cell := mkCell { hdof : hdr; kids : list hval }.
  Definition heap := list cell.
  Definition H (X : Type) := eff heap X.
  (* the Set method of a uniform array: which values it takes, converted (array.go:302-316) *)
  Context (conv : U -> A -> option A).
  Context (origin : Z).

  Definition hupd (h : heap) (l : nat) (c : cell) : heap :=
    firstn l h ++ match skipn l h with [] => [] | _ :: t => c :: t end.
  Definition cell_at (l : nat) : H cell := fun h => match nth_error h l with Some c => (Ok c, h) | None => (Panic, h) end.
  Definition alloc (c : cell) : H nat := fun h => (Ok (length h), h ++ [c]).
  Definition write (l : nat) (c : cell) : H unit := fun h => (Ok tt, hupd h l c).

  (* numbers/complexs.go:19-23, image.go:42 *)
  Definition by_reference (hd : hdr) : bool :=
    match hd with HArr (Some u) _ => byref u | _ => false end.
  (* array.go:213-219, 284-288 (and the other array types), list.go:25-31,
     object.go:96-112: Copy.  n bounds the depth. *)
  Fixpoint copy (n : nat) (v : hval) : H hval :=
    match n with
    | O => epanic
    | S n' =>
        match v with
        | HAtom _ => eret v
        | HRef l =>
            let! c := cell_at l in
            if by_reference (hdof c) then eret v else
            let! ks := mapE (copy n') (kids c) in
            let! l' := alloc (mkCell (hdof c) ks) in
            eret (HRef l')
        end
    end.
  (* a value deeper than the number of cells is cyclic: the stack overflows *)
  Definition Copy (v : hval) : H hval := fun h => copy (S (length h)) v h.

  (* ---------------- arrays: assign.go:123-254 ---------------- *)
  (* the value that is stored by Set (array.go:225-231, 302-316, bool.go, string.go, numbers/) *)
  Definition setv (u : option U) (v : hval) : option hval :=
    match u with
    | None => Some v
    | Some t => match v with HAtom a => option_map HAtom (conv t a) | HRef _ => None end
    end.
  Definition arr_set (l : nat) (i : Z) (v : hval) : H unit :=
    let! c := cell_at l in
    match hdof c with
    | HArr u ds =>
        if (i <? 0) || (zlen (kids c) <=? i) then efail else
        match setv u v with
        | Some v' => write l (mkCell (hdof c) (zupd (kids c) i v'))
        | None => efail
        end
    | _ => epanic
    end.
  (* assign.go:149-161 upgrade: a new array with the same elements *)
  Definition upgrade (l : nat) : H nat :=
    let! c := cell_at l in
    match hdof c with HArr u ds => alloc (mkCell (HArr None ds) (kids c)) | _ => epanic end.
  Definition mfun := hval -> hval -> H hval.
  (* assign.go:164-193 modAssign; the result is ar afterwards *)
  Definition modAssign (f : option mfun) (l : nat) (i : Z) (v : hval) : H nat :=
    if i =? -1 then eret l else
    let! v := match f with
              | None => eret v
              | Some f =>
                  let! c := cell_at l in
                  if (i <? 0) || (zlen (kids c) <=? i) then efail else
                  let! x := elift (zat (kids c) i) in f x v
              end in
    fun h => match arr_set l i v h with
             | (Ok _, h') => (Ok l, h')
             | (Err, h') => (let! l' := upgrade l in let! _ := arr_set l' i v in eret l') h'
             | (Panic, h') => (Panic, h')
             end.
  (* assign.go:205-209 *)
  Fixpoint assign_scalar (f : option mfun) (l : nat) (ds : list Z) (v : hval) : H nat :=
    match ds with
    | [] => eret l
    | d :: ds' => let! l' := modAssign f l d v in assign_scalar f l' ds' v
    end.
  (* assign.go:242-250: the elements of R are read one by one *)
  Fixpoint assign_vector (f : option mfun) (l : nat) (ds : list Z) (lr : nat) (i : Z) : H nat :=
    match ds with
    | [] => eret l
    | d :: ds' =>
        let! c := cell_at lr in
        if zlen (kids c) <=? i then efail else
        let! x := elift (zat (kids c) i) in
        let! v := Copy x in
        let! l' := modAssign f l d v in
        assign_vector f l' ds' lr (i + 1)
    end.
  (* R is an apl.Array: its shape and its elements; a List is one *)
  Definition as_array (R : hval) : H (option (nat * list Z * list hval)) :=
    match R with
    | HAtom _ => eret None
    | HRef l =>
        let! c := cell_at l in
        match hdof c with
        | HArr _ ds => eret (Some (l, ds, kids c))
        | HLst => eret (Some (l, [zlen (kids c)], kids c))
        | HDct _ => eret None
        end
    end.
  Definition notone (d : Z) : bool := negb (d =? 1).
  (* assign.go:195-254; the index array has the shape ids and the elements ds *)
  Definition assignArray (f : option mfun) (l : nat) (ids ds : list Z) (R : hval) : H nat :=
    let! r := as_array R in
    match r with
    | None => let! v := Copy R in assign_scalar f l ds v
    | Some (lr, rds, ks) =>
        match ks with
        | [x] => let! v := Copy x in assign_scalar f l ds v
        | _ =>
            if list_eq_dec Z.eq_dec (filter notone ids) (filter notone rds) then assign_vector f l ds lr 0 else efail
        end
    end.

  (* ---------------- lists: list.go:46-88, assign.go:503-516 ---------------- *)
  Fixpoint GetDeep (l : nat) (idx : list Z) : H hval :=
    match idx with
    | [] => efail
    | k :: idx' =>
        let! c := cell_at l in
        if (k <? 0) || (zlen (kids c) <=? k) then efail else
        let! v := elift (zat (kids c) k) in
        match idx' with
        | [] => eret v
        | _ => match v with
               | HAtom _ => efail
               | HRef l' => let! c' := cell_at l' in
                            match hdof c' with HLst => GetDeep l' idx' | _ => efail end
               end
        end
    end.
  Fixpoint SetDeep (l : nat) (idx : list Z) (x : hval) : H unit :=
    match idx with
    | [] => efail
    | k :: idx' =>
        let! c := cell_at l in
        if (k <? 0) || (zlen (kids c) <=? k) then efail else
        match idx' with
        | [] => write l (mkCell (hdof c) (zupd (kids c) k x))
        | _ =>
            let! v := elift (zat (kids c) k) in
            match v with
            | HAtom _ => efail
            | HRef l' => let! c' := cell_at l' in
                         match hdof c' with HLst => SetDeep l' idx' x | _ => efail end
            end
        end
    end.
  Definition assignList (f : option mfun) (l : nat) (idx : list Z) (R : hval) : H unit :=
    let! R := match f with None => eret R | Some f => let! v := GetDeep l idx in f v R end in
    let! x := Copy R in
    SetDeep l idx x.

  (* ---------------- dictionaries: object.go:66-75, assign.go:423-500 ---------------- *)
  (* Dict.Set of an existing key, given by its position *)
  Definition dset (l : nat) (n : Z) (v : hval) : H unit :=
    let! x := Copy v in
    let! c := cell_at l in
    write l (mkCell (hdof c) (zupd (kids c) n x)).
  (* index.go:128-131, 148-155: Set of a new key, with an EmptyArray *)
  Definition dnew (l : nat) (k : A) : H unit :=
    let! e := alloc (mkCell (HArr None []) []) in
    let! c := cell_at l in
    match hdof c with HDct keys => write l (mkCell (HDct (keys ++ [k])) (kids c ++ [HRef e])) | _ => epanic end.
  (* assign.go:442-464 the loop; vec: the location of R if it is taken by elements *)
  Fixpoint dict_loop (f : option mfun) (l : nat) (ints : list Z) (vec : option nat) (i : Z) (R : hval) : H unit :=
    match ints with
    | [] => eret tt
    | d :: ints' =>
        let n := d - origin in
        let! c := cell_at l in
        if (n <? 0) || (zlen (kids c) <=? n) then efail else
        let! v := match vec with
                  | None => eret R
                  | Some lr => let! cr := cell_at lr in
                               if zlen (kids cr) <=? i then efail else elift (zat (kids cr) i)
                  end in
        let! v := match f with
                  | None => eret v
                  | Some f => let! x := elift (zat (kids c) n) in f x v
                  end in
        let! _ := dset l n v in
        dict_loop f l ints' vec (i + 1) R
    end.
  Definition dict_flat (f : option mfun) (l : nat) (ints : list Z) (R : hval) : H unit :=
    let! r := as_array R in
    match r with
    | Some (lr, _, ks) =>
        if 1 <? zlen ints then if zlen ints =? zlen ks then dict_loop f l ints (Some lr) 0 R else efail
        else dict_loop f l ints None 0 R
    | None => dict_loop f l ints None 0 R
    end.
  (* assign.go:424-466 assignObject, 468-500 assignObjectDepth *)
  Fixpoint assignObject (f : option mfun) (l : nat) (ints : list Z) (R : hval) : H unit :=
    match ints with
    | [] => dict_flat f l ints R
    | i0 :: rest =>
        if i0 <? 0 then
          match rest with
          | [] => dict_flat f l [-1 - i0 + origin] R
          | _ =>
              let k := -1 - i0 in
              let! c := cell_at l in
              if zlen (kids c) <=? k then efail else
              let! v := elift (zat (kids c) k) in
              match v with
              | HAtom _ => efail
              | HRef lv =>
                  let! cv := cell_at lv in
                  let! v' := match hdof cv with
                             | HDct _ => let! _ := assignObject f lv rest R in eret v
                             | HLst => let! _ := assignList f lv rest R in eret v
                             | HArr _ _ => let! l' := assignArray f lv [zlen rest] rest R in eret (HRef l')
                             end in
                  dset l k v'
              end
          end
        else dict_flat f l ints R
    end.

  (* assign.go:112-148 assignValue with indexes: the new value, or nil *)
  Definition assignValue (f : option mfun) (w : hval) (ids ds : list Z) (R : hval) : H (option hval) :=
    match w with
    | HAtom _ => efail
    | HRef l =>
        let! c := cell_at l in
        match hdof c with
        | HDct _ => let! _ := assignObject f l ds R in eret None
        | HLst => let! _ := assignList f l ds R in eret None
        | HArr _ _ => let! l' := assignArray f l ids ds R in eret (Some (HRef l'))
        end
    end.

  (* ---------------- variables ---------------- *)
  (* a variable is a name in a frame; K is the type of these *)
  Context {K : Type} (K_dec : forall a b : K, {a = b} + {a <> b}).
  Record hstate := mkHS { hp : heap; vars : K -> option hval }.
  Definition setvar (s : hstate) (k : K) (v : option hval) : hstate :=
    mkHS (hp s) (fun k' => if K_dec k k' then v else vars s k').
  Definition in_heap {X} (m : H X) (s : hstate) (j : X -> hstate -> outcome unit * hstate) : outcome unit * hstate :=
    let (o, h) := m (hp s) in
    let s' := mkHS h (vars s) in
    match o with Ok x => j x s' | Err => (Err, s') | Panic => (Panic, s') end.
  Inductive action :=
  | Eval (c : cell)                        (* an expression makes a new array, list or dictionary *)
  | Assign (k : K) (R : hval)              (* K←R *)
  | Pass (k : K) (v : hval)                (* the call of a lambda binds ⍺ or ⍵ *)
  | Return (k : K)                         (* its frame is dropped *)
  | Update (k : K) (f : option mfun) (ids ds : list Z) (R : hval)  (* K[..]←R, K[..]f←R, positions selected *)
  | NewKey (k : K) (key : A).              (* K[`key]←R, the selection of a key that does not exist *)
  Definition exec (a : action) (s : hstate) : outcome unit * hstate :=
    match a with
    | Eval c => in_heap (alloc c) s (fun _ s => (Ok tt, s))
    (* assign.go:93-95; var.go:34-82 *)
    | Assign k R => in_heap (Copy R) s (fun v s => (Ok tt, setvar s k (Some v)))
    (* lambda.go:46-48: no copy *)
    | Pass k v => (Ok tt, setvar s k (Some v))
    (* lambda.go:41 *)
    | Return k => (Ok tt, setvar s k None)
    (* assign.go:97-108 *)
    | Update k f ids ds R =>
        match vars s k with
        | None => (Err, s)
        | Some w =>
            in_heap (assignValue f w ids ds R) s
              (fun v s => match v with
                          | None => (Ok tt, s)
                          | Some v => in_heap (Copy v) s (fun v s => (Ok tt, setvar s k (Some v)))
                          end)
        end
    | NewKey k key =>
        match vars s k with
        | Some (HRef l) => in_heap (dnew l key) s (fun _ s => (Ok tt, s))
        | _ => (Err, s)
        end
    end.
End Heap.
Arguments hval : clear implicits. Arguments hdr : clear implicits. Arguments cell : clear implicits. Arguments heap : clear implicits.
Arguments hstate : clear implicits. Arguments action : clear implicits. Arguments H : clear implicits. Arguments mfun : clear implicits.
