(* S_HeapUpdate.v -- what an indexed assignment means for the value of the variable: a function
   on trees, in which nothing is shared.

   The positions of a selection: an array has the positions of its elements, -1 selects
   nothing; a list has a path of positions; a dictionary the positions of its keys, counted
   from the index origin, or a path which starts with the numbers -1-k. *)
From Verif Require Import Base Eff M_Heap S_Heap.
From Coq Require Import List ZArith Bool.
Import ListNotations.
Open Scope Z_scope.

Section Update.
  Context {A U : Type} {BR : ByRef U} (conv : U -> A -> option A) (origin : Z).
  Local Notation tree := (tree A U).
  (* the function of a modified assignment, None for a plain one *)
  Context (g : option (tree -> tree -> option tree)).
  Definition combined (old new : tree) : option tree := match g with None => Some new | Some g => g old new end.

  (* ---- arrays ---- *)
  (* an array of the element type u takes the value y; any array can become one of mixed values *)
  Definition stored (u : option U) (y : tree) : option tree :=
    match u, y with
    | None, _ => Some y
    | Some u, Leaf a => option_map Leaf (conv u a)
    | Some _, Node _ _ => None
    end.
  Definition put (t : tree) (i : Z) (v : tree) : option tree :=
    if i =? -1 then Some t else
    match t with
    | Node (HArr u ds) ts =>
        match znth ts i with
        | None => None
        | Some x =>
            match combined x v with
            | None => None
            | Some y => Some (match stored u y with
                              | Some y' => Node (HArr u ds) (zupd ts i y')
                              | None => Node (HArr None ds) (zupd ts i y)
                              end)
            end
        end
    | _ => None
    end.
  Fixpoint puts (t : tree) (ivs : list (Z * tree)) : option tree :=
    match ivs with [] => Some t | (i, v) :: ivs' => match put t i v with Some t' => puts t' ivs' | None => None end end.
  (* the values for the positions: the only one, or one after the other *)
  Definition one_by_one (ids ds rds : list Z) (xs : list tree) : option (list tree) :=
    if list_eq_dec Z.eq_dec (filter notone ids) (filter notone rds) then
      if (length ds <=? length xs)%nat then Some (firstn (length ds) xs) else None
    else None.
  Definition values_for (ids ds : list Z) (R : tree) : option (list tree) :=
    match R with
    | Node (HArr _ _) [x] | Node HLst [x] => Some (map (fun _ => x) ds)
    | Node (HArr _ rds) xs => one_by_one ids ds rds xs
    | Node HLst xs => one_by_one ids ds [zlen xs] xs
    | _ => Some (map (fun _ => R) ds)
    end.
  Definition array_update (t : tree) (ids ds : list Z) (R : tree) : option tree :=
    match values_for ids ds R with Some vs => puts t (combine ds vs) | None => None end.

  (* ---- lists ---- *)
  Fixpoint deep (t : tree) (idx : list Z) (F : tree -> option tree) : option tree :=
    match idx with
    | [] => F t
    | k :: idx' =>
        match t with
        | Node HLst ts =>
            match znth ts k with
            | Some x => match deep x idx' F with Some x' => Some (Node HLst (zupd ts k x')) | None => None end
            | None => None
            end
        | _ => None
        end
    end.
  Definition list_update (t : tree) (idx : list Z) (R : tree) : option tree :=
    match idx with [] => None | _ => deep t idx (fun x => combined x R) end.

  (* ---- dictionaries ---- *)
  Fixpoint dict_puts (ts : list tree) (ivs : list (Z * tree)) : option (list tree) :=
    match ivs with
    | [] => Some ts
    | (i, v) :: ivs' =>
        match znth ts (i - origin) with
        | None => None
        | Some x => match combined x v with Some y => dict_puts (zupd ts (i - origin) y) ivs' | None => None end
        end
    end.
  Definition dict_values (ints : list Z) (R : tree) : option (list tree) :=
    match R with
    | Node (HArr _ _) xs | Node HLst xs =>
        if (1 <? length ints)%nat then if (length ints =? length xs)%nat then Some xs else None else Some (map (fun _ => R) ints)
    | _ => Some (map (fun _ => R) ints)
    end.
  Definition flat_update (keys : list A) (ts : list tree) (ints : list Z) (R : tree) : option tree :=
    match dict_values ints R with
    | Some vs => option_map (Node (HDct keys)) (dict_puts ts (combine ints vs))
    | None => None
    end.
  Fixpoint dict_update (t : tree) (ints : list Z) (R : tree) : option tree :=
    match t with
    | Node (HDct keys) ts =>
        match ints with
        | i0 :: ((_ :: _) as rest) =>
            if i0 <? 0 then
              match znth ts (-1 - i0) with
              | None => None
              | Some x =>
                  option_map (fun x' => Node (HDct keys) (zupd ts (-1 - i0) x'))
                    match x with
                    | Leaf _ => None
                    | Node (HDct _) _ => dict_update x rest R
                    | Node HLst _ => list_update x rest R
                    | Node (HArr _ _) _ => array_update x [zlen rest] rest R
                    end
              end
            else flat_update keys ts ints R
        | [i0] => flat_update keys ts (if i0 <? 0 then [-1 - i0 + origin] else ints) R
        | [] => flat_update keys ts ints R
        end
    | _ => None
    end.

  (* K[ds]←R, K[ds]g←R: ids is the shape of the selection *)
  Definition update (t : tree) (ids ds : list Z) (R : tree) : option tree :=
    match t with
    | Leaf _ => None
    | Node (HArr _ _) _ => array_update t ids ds R
    | Node HLst _ => list_update t ds R
    | Node (HDct _) _ => dict_update t ds R
    end.
End Update.

Section Functions.
  Context {A U : Type} {BR : ByRef U}.
  (* a function that computes g and stores its result in new cells *)
  Definition computes (f : mfun A U) (g : tree A U -> tree A U -> option (tree A U)) : Prop :=
    forall h v w t ls t' ls', reads h v t ls -> reads h w t' ls' ->
    match g t t' with
    | Some r => exists x h1 lr, f v w h = (Ok x, h ++ h1) /\ reads (h ++ h1) x r lr /\ forall y, In y lr -> (length h <= y)%nat
    | None => exists h1, f v w h = (Err, h ++ h1)
    end.
  Definition modifies (f : option (mfun A U)) (g : option (tree A U -> tree A U -> option (tree A U))) : Prop :=
    match f, g with None, None => True | Some f, Some g => computes f g | _, _ => False end.
End Functions.

(* Programs of assignments with values instead of references: a store has a tree for each
   variable. *)
Section Programs.
  Context {A U K : Type} {BR : ByRef U} (conv : U -> A -> option A) (origin : Z) (K_dec : forall a b : K, {a = b} + {a <> b}).
  Local Notation tree := (tree A U). Local Notation hstate := (hstate A U K). Local Notation action := (action A U K).
  Inductive stmt :=
  | SSet (k : K) (t : tree)                                                                  (* K←T *)
  | SUpd (k : K) (g : option (tree -> tree -> option tree)) (ids ds : list Z) (t : tree)     (* K[ds]←T, K[ds]g←T *)
  | SNew (k : K) (key : A).                                                                  (* a new key of the dictionary K *)
  Definition store := K -> option tree.
  Definition with_value (sg : store) (k : K) (t : tree) : store := fun k' => if K_dec k k' then Some t else sg k'.
  Definition meaning (st : stmt) (sg : store) : option store :=
    match st with
    | SSet k t => Some (with_value sg k t)
    | SUpd k g ids ds t =>
        match sg k with
        | None => None
        | Some old => option_map (with_value sg k) (update conv origin g old ids ds t)
        end
    | SNew k key =>
        match sg k with
        | Some (Node (HDct keys) ts) => Some (with_value sg k (Node (HDct (keys ++ [key])) (ts ++ [Node (HArr None []) []])))
        | _ => None
        end
    end.
  Fixpoint meanings (sts : list stmt) (sg : store) : option store :=
    match sts with [] => Some sg | st :: sts' => match meaning st sg with Some sg' => meanings sts' sg' | None => None end end.
  (* the action a executes the statement st: its right argument has the value t; it is not the
     variable itself or a part of it *)
  Definition realises (s : hstate) (st : stmt) (a : action) : Prop :=
    match st, a with
    | SSet k t, Assign k' R => k = k' /\ exists lr, reads (hp s) R t lr
    | SUpd k g ids ds t, Update k' f ids' ds' R => k = k' /\ ids = ids' /\ ds = ds' /\ modifies f g /\ (exists lr, reads (hp s) R t lr) /\
        forall w, vars s k = Some w -> ~ share (hp s) R w
    | SNew k key, NewKey k' key' => k = k' /\ key = key'
    | _, _ => False
    end.
  (* a run of a program; in between expressions make new values *)
  Inductive executes : hstate -> list stmt -> hstate -> Prop :=
  | ex_nil s : executes s [] s
  | ex_eval s c o s1 sts s' : Forall (is_value (hp s)) (kids c) -> exec conv origin K_dec (Eval c) s = (o, s1) -> executes s1 sts s' -> executes s sts s'
  | ex_step s st a s1 sts s' : realises s st a -> exec conv origin K_dec a s = (Ok tt, s1) -> executes s1 sts s' -> executes s (st :: sts) s'.
End Programs.
