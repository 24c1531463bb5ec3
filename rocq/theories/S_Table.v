(* S_Table.v -- vocabulary for tables. *)
From Coq Require Import String.
From Verif Require Import Base M_Array M_Structural M_Number M_Scalar P_Scalar M_Dict S_Dict S_Operators M_Table.
Open Scope Z_scope.

Section S.
  Context {P : Type} (M : methods P) (t : tower P) (hu : ntype -> bool) {K : Type} (keq : K -> K -> bool).
  Local Notation sv := (sval P).
  Local Notation table := (@table P K).

  (* the value in row i (the first is 0) of the column k *)
  Definition cell (T : table) (i : Z) (k : K) : option sv :=
    match At keq (tdict T) k with Some r => znth (elems (view r)) i | None => None end.
  (* a vector of n values *)
  Definition vector (r : rep P) (n : Z) : Prop := dims (view r) = [n] /\ zlen (elems (view r)) = n.
  (* a proper table: one compact vector for every key, all of the length Rows *)
  Definition good (T : table) : Prop :=
    proper keq (tdict T) /\ 0 <= Rows T /\
    forall k r, At keq (tdict T) k = Some r -> isUniform r = true /\ rep_ok M r /\ vector r (Rows T).
  (* T has the columns ks, n rows, and the value g i k in row i of the column k *)
  Definition is_table (T : table) (ks : list K) (n : Z) (g : Z -> K -> sv) : Prop :=
    good T /\ keysOf (tdict T) = ks /\ Rows T = n /\ forall i k, 0 <= i < n -> In k ks -> cell T i k = Some (g i k).
  (* the scalars a column may have: strings and the numbers of the tower that have compact arrays *)
  Definition plain (v : sv) : Prop :=
    match v with VNum n => sclass M t v <> None /\ hu (typeOf M n) = true | VOth ty _ => ty = strT end.
  (* ws is vs, or each number of vs raised to the type of one of them *)
  Definition unified (vs ws : list sv) : Prop :=
    ws = vs \/
    exists m, In (VNum m) vs /\
      Forall2 (fun v w => exists n n' m', v = VNum n /\ w = VNum n' /\ SameType M t n m = Ok (n', m') /\ typeOf M n' = typeOf M m) vs ws.
  (* the values that an entry of a dictionary contributes to a table: a scalar is one value,
     a vector its elements; other entries are no columns *)
  Inductive column_of : @dval P -> list sv -> Prop :=
  | co_scalar s : column_of (DVal (TScal s)) [s]
  | co_vector r : rep_ok M r -> vector r (zlen (elems (view r))) -> column_of (DVal (TArr r)) (elems (view r)).
  (* new is old with the values vs written to the positions l, in this order: the last
     value written to a position remains *)
  Definition written (old : list sv) (l : list Z) (vs new : list sv) : Prop :=
    zlen new = zlen old /\
    (forall i r, znth l i = Some r -> (forall i', i < i' -> znth l i' <> Some r) -> znth new r = znth vs i) /\
    (forall r, ~ In r l -> znth new r = znth old r).
  (* the cells of a table are scalars that columns may have *)
  Definition plain_cells (T : table) : Prop := forall i k v, cell T i k = Some v -> plain v.

  (* -------- what an index T[rs] or T[rs;cs] means -------- *)
  Context (skey : string -> K) (origin : Z).
  Local Notation rowspec := (@rowspec P K).
  Local Notation colspec := (@colspec K).
  (* the rows (from 0) that the first index selects *)
  Inductive rows_meant (T : table) : rowspec -> list Z -> Prop :=
  | rm_all : rows_meant T RowAll (zseq (Rows T))
  | rm_one i : 0 <= i < Rows T -> rows_meant T (RowOne (i + origin)) [i]
  | rm_ints l : Forall (fun i => 0 <= i < Rows T) l -> rows_meant T (RowInts (map (fun i => i + origin) l)) l
  | rm_fun f bs l : f T = Ok bs -> bs <> [] -> zlen bs <= Rows T ->
      (* the positions of true, in order *)
      (forall i, In i l <-> znth bs i = Some true) -> increasing l ->
      rows_meant T (RowFun f) l.
  Inductive index_means (T : table) : rowspec -> colspec -> list Z -> list K -> Prop :=
  | im_rows rs l : rs <> RowAll -> rs <> RowInts [] -> rows_meant T rs l -> index_means T rs ColNone l (keysOf (tdict T))
  | im_name s : index_means T (RowName s) ColNone (zseq (Rows T)) [skey s]
  | im_names ss : index_means T (RowNames ss) ColNone (zseq (Rows T)) (map skey ss)
  | im_both_all rs l : rows_meant T rs l -> index_means T rs ColAll l (keysOf (tdict T))
  | im_both_one rs l k : rows_meant T rs l -> index_means T rs (ColOne k) l [k]
  | im_both rs l ks : rows_meant T rs l -> index_means T rs (ColKeys ks) l ks.
  (* an index is an array (other than the empty one) or a function *)
  Definition many (rs : rowspec) (cs : colspec) : Prop :=
    match rs with RowInts _ | RowNames _ | RowFun _ => True | _ => False end \/ match cs with ColKeys _ => True | _ => False end.
  (* the values that the right side of T[..]←R has for the column k, one for each of n rows;
     ks are the columns of the index *)
  Inductive right_values (n : Z) (ks : list K) : @trhs P K -> (K -> list sv) -> Prop :=
  | rv_scalar v : right_values n ks (RScal v) (fun _ => repeat v (Z.to_nat n))
  | rv_dict d g : keysOf d = ks -> (forall k, In k ks -> At keq d k = Some (TScal (g k))) -> right_values n ks (RDict d) (fun k => repeat (g k) (Z.to_nat n))
  | rv_table U g : good U -> keysOf (tdict U) = ks -> Rows U = n -> (forall k r, At keq (tdict U) k = Some r -> g k = elems (view r)) -> right_values n ks (RTab U) g.

  (* -------- queries -------- *)
  (* the rows with the value v in the column k, in order *)
  Definition group_rows (T : table) (k : K) (v : sv) (rows : list Z) : Prop :=
    increasing rows /\ forall i, In i rows <-> cell T i k = Some v.
  (* u is the vector of the cells of the column key in the given rows *)
  Definition part (T : table) (rows : list Z) (key : K) (u : rep P) : Prop :=
    isUniform u = true /\ rep_ok M u /\ vector u (zlen rows) /\ forall i j, znth rows i = Some j -> znth (elems (view u)) i = cell T j key.
  (* a function that returns a scalar gives one row, one that returns an array a row for each of its values *)
  Definition values_of (r : @tval P) : list sv := match r with TScal v => [v] | TArr a => elems (view a) end.
  Local Notation agfun := (rep P -> outcome (@tval P)).
  (* the columns of the result: their name, function and the column it is applied to.  One
     function for all columns, several for one column, or one for each *)
  Inductive aggregates : @agg P K -> list K -> list (K * agfun * K) -> Prop :=
  | ag_fun f ks : aggregates (AFun f) ks (map (fun k => (k, f, k)) ks)
  | ag_each d ks fs : zlen (keysOf d) = zlen ks -> zlen fs = zlen ks ->
      (forall i n f, znth (keysOf d) i = Some n -> znth fs i = Some f -> At keq d n = Some (Some f)) ->
      aggregates (ADict d) ks (combine (combine (keysOf d) fs) ks)
  | ag_many d k fs : 1 < zlen (keysOf d) -> zlen fs = zlen (keysOf d) ->
      (forall i n f, znth (keysOf d) i = Some n -> znth fs i = Some f -> At keq d n = Some (Some f)) ->
      aggregates (ADict d) [k] (map (fun nf => (nf, k)) (combine (keysOf d) fs)).
  (* one result of the function for every group *)
  Definition results (T : table) (groups : list (list Z)) (f : agfun) (key : K) (rs : list (@tval P)) : Prop :=
    Forall2 (fun rows r => exists u, part T rows key u /\ f u = Ok r) groups rs.
End S.
