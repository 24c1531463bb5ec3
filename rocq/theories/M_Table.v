(* M_Table.v -- model of tables: apl/table.go, transposeObject and transposeTable of
   apl/primitives/transpose.go, tableSelection and tableIndex of apl/primitives/index.go,
   table2array, tableQuery and the catenation of tables of apl/primitives/table.go,
   assignTable of apl/operators/assign.go.

   A table is a dictionary of columns with a number of rows.  Columns are arrays of scalars
   (rep of M_Scalar.v).  Simplifications: Copy is the identity (M_Heap.v is about sharing);
   the functions that a query calls have no side effects; a function that selects rows or
   makes the group column is given by its result. *)
From Coq Require Import String.
From Verif Require Import Base M_Array M_Structural M_Number M_Scalar M_Dict M_Search.
Open Scope Z_scope.

Section Table.
  Context {P : Type} (M : methods P) (t : tower P) (has_uniform : ntype -> bool).
  Context {K : Type} (keq : K -> K -> bool) (skey : string -> K).
  Local Notation sval := (sval P). Local Notation rep := (rep P).
  (* a scalar or an array *)
  Inductive tval := TScal (v : sval) | TArr (r : rep).
  (* what a dictionary may hold: these, or another object *)
  Inductive dval := DVal (v : tval) | DObj.
  (* table.go:26-29 *)
  Record table := mkTable { tdict : dict K rep; Rows : Z }.
  Definition shape (r : rep) : list Z := dims (view r).
  Definition vals (r : rep) : list sval := elems (view r).
  Definition mixed (vs : list sval) : rep := RMixed (mkArr [zlen vs] vs).
  (* the type assertion v.(apl.Uniform) *)
  Definition uniform (r : rep) : outcome rep := if isUniform r then Ok r else Panic.
  (* t.At(key) where a missing column is a nil *)
  Definition column (d : dict K rep) (k : K) : outcome rep := match At keq d k with Some r => Ok r | None => Panic end.

  (* transpose.go:163-194: the column for the key k *)
  Definition make_column (d : dict K dval) (k : K) : outcome (Z * rep) :=
    match At keq d k with
    | None => Panic                                   (* nil.Copy() *)
    | Some DObj => Err
    | Some (DVal v) =>
        let r := match v with TScal s => RMixed (mkArr [1] [s]) | TArr r => r end in
        match shape r with
        | [size] => let* u := Unify M t has_uniform r true in
                    if snd u : bool then Ok (size, fst u) else Err
        | _ => Err
        end
    end.
  (* transpose.go:162-203; n is set by the first key *)
  Fixpoint transpose_loop (d : dict K dval) (keys : list K) (n : option Z) (acc : dict K rep) : outcome table :=
    match keys with
    | [] => Ok (mkTable acc (match n with Some n => n | None => 0 end))
    | k :: keys' =>
        let* c := make_column d k in
        let ok := match n with Some n => fst c =? n | None => true end in
        if ok : bool then
          transpose_loop d keys' (Some (match n with Some n => n | None => fst c end))
            (mkDict (keysOf acc ++ [k]) (mset keq (mapOf acc) k (snd c)))
        else Err
    end.
  (* transpose.go:157-204 transposeObject *)
  Definition transposeObject (d : dict K dval) : outcome table := transpose_loop d (keysOf d) None (mkDict [] []).
  (* transpose.go:207-209 transposeTable *)
  Definition transposeTable (T : table) : dict K dval :=
    mkDict (keysOf (tdict T)) (map (fun kv => (fst kv, DVal (TArr (snd kv)))) (mapOf (tdict T))).

  (* table.go:348-360 dict2table, for a dictionary of arrays *)
  Definition dict2table (d : dict K rep) : outcome table :=
    match keysOf d with
    | [] => Ok (mkTable d 0)
    | k :: _ => Ok (mkTable d (match At keq d k with Some r => match shape r with [n] => n | _ => 0 end | None => 0 end))
    end.
  (* table.go:362-376 table2array: res.Values[i*n+k]; position j is column j mod n of row j / n *)
  Definition table2array (T : table) : outcome rep :=
    let keys := keysOf (tdict T) in
    let n := zlen keys in
    let* vs := mapM (fun j => let* k := zat keys (j mod n) in let* c := column (tdict T) k in zat (vals c) (j / n)) (zseq (Rows T * n)) in
    let* u := Unify M t has_uniform (RMixed (mkArr [Rows T; n] vs)) true in Ok (fst u).

  (* -------- selection: index.go:470-600 -------- *)
  (* the first index: EmptyArray; a number or an array of numbers; a string or an array of
     strings; a function with its result; any other scalar *)
  Inductive rowspec := RowAll | RowOne (i : Z) | RowInts (l : list Z) | RowName (s : string) | RowNames (l : list string) | RowFun (f : table -> outcome (list bool)) | RowBad.
  (* the second index, if there is one: EmptyArray, a key or an array of keys *)
  Inductive colspec := ColNone | ColAll | ColOne (k : K) | ColKeys (l : list K).
  (* index.go:488-492 colmap *)
  Definition colmap (cols : list K) : gmap K Z := keyindex keq 0 cols.
  Definition find_cols (cols : list K) (ks : list K) : outcome (list Z) :=
    mapM (fun k => match mget keq (colmap cols) k with Some i => Ok i | None => Err end) ks.
  (* index.go:495: ToStringArray accepts any array without elements *)
  Definition as_strings (r : rowspec) : option (list string) :=
    match r with RowName s => Some [s] | RowNames l => Some l | RowAll => Some [] | RowInts [] => Some [] | _ => None end.
  Definition all_cols (cols : list K) : list Z := zseq (zlen cols).
  (* index.go:487-536: the columns, and the first index that is left *)
  Definition select_cols (cols : list K) (rs : rowspec) (cs : colspec) : outcome (rowspec * list Z) :=
    match cs with
    | ColNone =>
        match as_strings rs with
        | Some ss => let* ci := find_cols cols (map skey ss) in Ok (RowAll, ci)
        | None => Ok (rs, all_cols cols)
        end
    | ColAll => Ok (rs, all_cols cols)
    | ColOne k => let* ci := find_cols cols [k] in Ok (rs, ci)
    | ColKeys ks => let* ci := find_cols cols ks in Ok (rs, ci)
    end.
  (* index.go:538-587: the row numbers, not checked *)
  Definition select_rows (origin : Z) (T : table) (rs : rowspec) : outcome (list Z) :=
    match rs with
    | RowAll => Ok (map (fun i => i + origin) (zseq (Rows T)))
    | RowOne i => Ok [i]
    | RowInts l => Ok l
    | RowFun f => let* bs := f T in match bs with [] => Panic | _ => Ok (where_loop origin 0 bs) end
    | RowNames [] => Panic    (* ToIndexArray returns an EmptyArray, iav.(apl.IntArray) fails *)
    | RowName _ | RowNames _ | RowBad => Err
    end.
  (* index.go:479-600 tableSelection: the rows and the columns *)
  Definition tableSelection (origin : Z) (T : table) (rs : rowspec) (cs : colspec) : outcome (list Z * list Z) :=
    let* rc := select_cols (keysOf (tdict T)) rs cs in
    let* ia := select_rows origin T (fst rc) in
    let* rows := mapM (fun k => let n := k - origin in if (n <? 0) || (Rows T <=? n) then Err else Ok n) ia in
    Ok (rows, snd rc).

  (* reflect.TypeOf of arrays *)
  Definition same_rep (a b : rep) : bool :=
    match a, b with
    | RMixed _, RMixed _ | RList _, RList _ | RBools _, RBools _ | RInts _, RInts _ | RStrings _, RStrings _ | REmpty, REmpty => true
    | RNums x _, RNums y _ => x =? y
    | _, _ => false
    end.
  (* c.Make([]int{len(vs)}) and Set of all values (array.go: a Set of a value of another
     type is an error; here the values come from arrays of the type of c, or are checked
     before); Make is a method of uniform arrays *)
  Definition build (c : rep) (vs : list sval) : outcome rep :=
    let res := match c with
               | RBools _ => let* l := mapM toB vs in Ok (RBools (mkArr [zlen vs] l))
               | RInts _ => let* l := mapM toI vs in Ok (RInts (mkArr [zlen vs] l))
               | RStrings _ => let* l := mapM toS vs in Ok (RStrings (mkArr [zlen vs] l))
               | RNums ty _ => let* l := mapM (toP M ty) vs in Ok (RNums ty (mkArr [zlen vs] l))
               | RMixed _ | RList _ | REmpty => Panic
               end in
    match uniform c with Ok _ => match res with Ok r => Ok r | _ => Err end | _ => Panic end.
  (* index.go:680-687: the rows of a column *)
  Definition subcolumn (r : rep) (rows : list Z) : outcome rep :=
    let* c := uniform r in
    let* vs := mapM (zat (vals c)) rows in build c vs.
  Inductive tres := TTable (T : table) | TDict (d : dict K rep) | TVal (v : tval).
  (* index.go:639-651: no index is an array or a function *)
  Definition conv_spec (rs : rowspec) (cs : colspec) : bool :=
    match rs with RowAll | RowOne _ | RowName _ | RowBad => true | RowInts _ | RowNames _ | RowFun _ => false end &&
    match cs with ColNone | ColAll | ColOne _ => true | ColKeys _ => false end.
  (* index.go:673-688 *)
  Definition subtable (T : table) (rows cols : list Z) : outcome (dict K rep) :=
    let* kvs := mapM (fun i => let* k := zat (keysOf (tdict T)) i in let* c := column (tdict T) k in
                               let* u := subcolumn c rows in Ok (k, u)) cols in
    Ok (ofpairs keq kvs).
  (* index.go:617-700 tableIndex with one or two indexes; conv: see above *)
  Definition index_conv (T : table) (conv : bool) (rows cols : list Z) : outcome tres :=
    match conv, rows, cols with
    | true, [i], [c] =>
        let* k := zat (keysOf (tdict T)) c in let* r := column (tdict T) k in let* v := zat (vals r) i in Ok (TVal (TScal v))
    | true, _, [c] =>
        let* k := zat (keysOf (tdict T)) c in let* r := column (tdict T) k in Ok (TVal (TArr r))
    | _, _, _ =>
        let* d := subtable T rows cols in
        Ok (match conv, rows with true, [_] => TDict d | _, _ => TTable (mkTable d (zlen rows)) end)
    end.
  Definition tableIndex (origin : Z) (T : table) (rs : rowspec) (cs : colspec) : outcome tres :=
    let* s := tableSelection origin T rs cs in index_conv T (conv_spec rs cs) (fst s) (snd s).

  (* -------- queries: table.go:399-576 tableQuery -------- *)
  Context (veq : sval -> sval -> bool).
  Inductive agg := AFun (f : rep -> outcome tval) | ADict (d : dict K (option (rep -> outcome tval))).
  Inductive grp := GNone | GKey (k : K) | GFun (name : K) (f : table -> outcome tval).
  (* table.go:457-466: the rows of every group value, and the values in the order in which they occur *)
  Definition group_step (st : gmap sval (list Z) * list sval) (iv : Z * sval) : gmap sval (list Z) * list sval :=
    let '(m, gs) := st in
    let '(i, v) := iv in
    match mget veq m v with
    | Some l => (mset veq m v (l ++ [i]), gs)
    | None => (mset veq m v [i], gs ++ [v])
    end.
  Definition groupings (col : list sval) : gmap sval (list Z) * list sval :=
    fold_left group_step (combine (zseq (zlen col)) col) ([], []).
  (* table.go:401-455: the keys that remain, and the name and the values of the group column *)
  Definition group_column (T : table) (g : grp) : outcome (list K * option (K * list sval)) :=
    let keys := keysOf (tdict T) in
    match g with
    | GNone => Ok (keys, None)
    | GFun name f =>
        let* v := f T in
        match v with
        | TScal _ => Err
        | TArr r =>
            match shape r with
            | [n] => if n =? Rows T then
                       let* u := Unify M t has_uniform r true in
                       if snd u : bool then let* c := uniform (fst u) in Ok (skipn 1 keys, Some (name, vals c)) else Err
                     else Err
            | _ => Err
            end
        end
    | GKey k =>
        if existsb (fun x => keq x k) keys then
          let* c := column (tdict T) k in let* c := uniform c in
          Ok (filter (fun x => negb (keq x k)) keys, Some (k, vals c))
        else Err
    end.
  (* table.go:469-504: the names of the result, their functions and the columns they are applied to *)
  Definition aggregations (keys : list K) (a : agg) : outcome (list (K * (rep -> outcome tval) * K)) :=
    match a with
    | AFun f => Ok (map (fun k => (k, f, k)) keys)
    | ADict d =>
        let names := keysOf d in
        let* nk := if (zlen names =? 1) && (1 <? zlen keys) then
                     let* n := zat names 0 in Ok (combine (map (fun _ => n) keys) keys)
                   else if (zlen keys =? 1) && (1 <? zlen names) then
                     let* k := zat keys 0 in Ok (combine names (map (fun _ => k) names))
                   else if zlen names =? zlen keys then Ok (combine names keys) else Err in
        mapM (fun nk => match At keq d (fst nk) with Some (Some f) => Ok (fst nk, f, snd nk) | _ => Err end) nk
    end.
  Definition tval_values (v : tval) : list sval := match v with TScal s => [s] | TArr r => vals r end.
  (* table.go:523-540: one column of the result; the rows that each group contributes *)
  Definition aggregate (c : rep) (f : rep -> outcome tval) (groups : list (list Z)) : outcome (list (list sval)) :=
    mapM (fun rows => let* y := subcolumn c rows in let* r := f y in Ok (tval_values r)) groups.
  (* table.go:506-564; counts: the number of rows of each group in the first column *)
  Fixpoint query_loop (T : table) (groups : list (list Z)) (ags : list (K * (rep -> outcome tval) * K)) (first : option (Z * list Z)) (d : dict K rep)
    : outcome (dict K rep * option (Z * list Z)) :=
    match ags with
    | [] => Ok (d, first)
    | (name, f, key) :: ags' =>
        let* c := column (tdict T) key in
        let* c := uniform c in
        let* vss := aggregate c f groups in
        let vs := concat vss in
        let* u := Unify M t has_uniform (mixed vs) true in
        if snd u : bool then
          match shape (fst u) with
          | [n] =>
              let first' := match first with Some x => x | None => (n, map zlen vss) end in
              if n =? fst first' then
                query_loop T groups ags' (Some first') (mkDict (keysOf d ++ [name]) (mset keq (mapOf d) name (fst u)))
              else Err
          | _ => Err
          end
        else Err
    end.
  Definition tableQuery (T : table) (a : agg) (g : grp) : outcome table :=
    let* kg := group_column T g in
    let* ags := aggregations (fst kg) a in
    let gs := match snd kg with
              | None => [(None, zseq (Rows T))]
              | Some (_, col) => let '(m, gvs) := groupings col in
                                 map (fun v => (Some v, match mget veq m v with Some l => l | None => [] end)) gvs
              end in
    let* r := query_loop T (map snd gs) ags None (mkDict [] []) in
    let numrows := match snd r with Some (n, _) => n | None => 0 end in
    match snd kg with
    | None => Ok (mkTable (fst r) numrows)
    | Some (name, _) =>
        let counts := match snd r with Some (_, cs) => cs | None => [] end in
        let gres := concat (map (fun gc => match fst (fst gc) with Some v => repeat v (Z.to_nat (snd gc)) | None => [] end) (combine gs counts)) in
        let* u := Unify M t has_uniform (mixed gres) true in
        if snd u : bool then
          Ok (mkTable (mkDict (name :: keysOf (fst r)) (mset keq (mapOf (fst r)) name (fst u))) numrows)
        else Err
    end.
  (* index.go:628-638, 696-698 tableIndex with three or four indexes: T[rows;cols;agg;group] *)
  Definition tableIndexQuery (origin : Z) (T : table) (rs : rowspec) (cs : colspec) (a : agg) (g : grp) : outcome table :=
    let* s := tableSelection origin T rs cs in
    let* d := subtable T (fst s) (snd s) in
    tableQuery (mkTable d (zlen (fst s))) a g.

  (* -------- assignment: assign.go:255-420 assignTable -------- *)
  (* the right argument: an array, a scalar, a dictionary, another table *)
  Inductive trhs := RArr (r : rep) | RScal (v : sval) | RDict (d : dict K tval) | RTab (T : table).
  (* nc.Values[k] = newcol.At(i) for i, k := range rows *)
  Fixpoint set_all (l : list sval) (rows : list Z) (new : list sval) (i : Z) : outcome (list sval) :=
    match rows with
    | [] => Ok l
    | k :: rows' => let* v := zat new i in if (k <? 0) || (zlen l <=? k) then Panic else set_all (zupd l k v) rows' new (i + 1)
    end.
  (* assign.go:323-368 set; f: the function of a modified assignment *)
  Definition set_column (f : option (rep -> rep -> outcome tval)) (rows : list Z) (col new : rep) : outcome rep :=
    let* new := match f with
                | None => Ok new
                | Some f =>
                    let* old := subcolumn col rows in
                    let* v := f old new in
                    match v with
                    | TScal _ => Err
                    | TArr r => match shape r with
                                | [n] => if n =? zlen rows then
                                           let* u := Unify M t has_uniform r true in
                                           if snd u : bool then uniform (fst u) else Err
                                         else Err
                                | _ => Err
                                end
                    end
                end in
    let* l := set_all (vals col) rows (vals new) 0 in
    if same_rep new col then build col l
    else
      let* n := zat (shape col) 0 in
      let* u := Unify M t has_uniform (RMixed (mkArr [n] l)) true in
      if snd u : bool then uniform (fst u) else Err.
  (* assign.go:270-311: the right array as a table; the types must be those of the columns.
     Reshape is a method of all arrays but EmptyArray, whose shape is []. *)
  Definition array_columns (d : dict K rep) (keys : list K) (rows : list Z) (r : rep) : outcome table :=
    let sh := match shape r with
              | [n] => if zlen (vals r) =? zlen rows then [n; 1] else [n]
              | s => s
              end in
    match sh with
    | [n; m] =>
        if (n =? zlen rows) && (m =? zlen keys) then
          let* kvs := mapM (fun ik =>
              let* c := column d (snd ik) in
              let* c := uniform c in
              let* vs := mapM (fun i => zat (vals r) (i * m + fst ik)) (zseq (zlen rows)) in
              let* u := build c vs in
              Ok (snd ik, u)) (combine (zseq (zlen keys)) keys) in
          Ok (mkTable (ofpairs keq kvs) n)
        else Err
    | _ => Err
    end.
  (* assign.go:388-413: the new values for the column of key *)
  Definition right_column (R : dict K tval + table) (rows : list Z) (key : K) : outcome rep :=
    match R with
    | inr T =>
        let* rc := column (tdict T) key in
        let* rc := uniform rc in
        match shape rc with
        | [n] => if n =? zlen rows then subcolumn rc (zseq (zlen rows)) else Err
        | _ => Err
        end
    | inl o =>
        match At keq o key with
        | None => Panic
        | Some (TArr _) => Err
        | Some (TScal v) => let* u := Unify M t has_uniform (mixed (repeat v (length rows))) false in Ok (fst u)
        end
    end.
  (* assign.go:385-420: the loop over the columns, in place *)
  Fixpoint assign_columns (f : option (rep -> rep -> outcome tval)) (R : dict K tval + table) (rows : list Z) (keys : list K) (d : dict K rep)
    : outcome unit * dict K rep :=
    match keys with
    | [] => (Ok tt, d)
    | key :: keys' =>
        match (let* col := column d key in
               let* col := uniform col in
               let* new := right_column R rows key in
               set_column f rows col new) with
        | Ok col => assign_columns f R rows keys' (DSet keq d key col)
        | Err => (Err, d)
        | Panic => (Panic, d)
        end
    end.
  Fixpoint same_keys (a b : list K) : bool :=
    match a, b with [], [] => true | x :: a', y :: b' => keq x y && same_keys a' b' | _, _ => false end.
  (* assign.go:258-420 assignTable for the rows and columns that tableSelection gives *)
  Definition assignTable (f : option (rep -> rep -> outcome tval)) (R : trhs) (rows cols : list Z) (T : table) : outcome unit * table :=
    let res :=
      let* keys := mapM (zat (keysOf (tdict T))) cols in
      let* o := match R with
                | RArr r => let* U := array_columns (tdict T) keys rows r in Ok (inr U)
                | RScal v => Ok (inl (ofpairs keq (map (fun k => (k, TScal v)) keys)))
                | RDict d => Ok (inl d)
                | RTab U => Ok (inr U)
                end in
      let rk := match o with inl d => keysOf d | inr U => keysOf (tdict U) end in
      if same_keys rk keys then Ok (keys, o) else Err in
    match res with
    | Ok (keys, o) => let '(r, d) := assign_columns f o rows keys (tdict T) in (r, mkTable d (Rows T))
    | Err => (Err, T)
    | Panic => (Panic, T)
    end.
  (* T[rows;cols]←R and T[rows;cols]f←R *)
  Definition table_assign (origin : Z) (f : option (rep -> rep -> outcome tval)) (R : trhs) (rs : rowspec) (cs : colspec) (T : table) : outcome unit * table :=
    match tableSelection origin T rs cs with
    | Ok (rows, cols) => assignTable f R rows cols T
    | Err => (Err, T)
    | Panic => (Panic, T)
    end.

  (* -------- catenation: table.go:213-346 -------- *)
  Context (origin : Z).
  (* comma.go:190-310 catenate of two vectors: M_Structural.catenate, then UnifyArray; a
     vector without elements gives the other argument.  A scalar is a vector with one
     element (comma.go:230-245), except that an empty column with a scalar gives the scalar
     itself, which is not modelled. *)
  Definition cat_columns (l r : rep) : outcome rep :=
    if zlen (vals l) =? 0 then Ok r else
    if zlen (vals r) =? 0 then Ok l else
    let* v := catenate origin (Arr (view l)) (Arr (view r)) AxNone in
    let* u := Unify M t has_uniform (RMixed (asArr v)) false in Ok (fst u).
  (* table.go:279-346 catenateTwoTables for two tables; first: T⍪U.  For tables the sense
     of first is inverted (table.go:292-294). *)
  Definition catTables (first : bool) (l r : table) : outcome table :=
    if negb first then
      let* d := catDicts keq true cat_columns (tdict l) (tdict r) in dict2table d
    else
      let lk := keysOf (tdict l) in
      let rk := keysOf (tdict r) in
      if negb (zlen lk =? zlen rk) then Err else
      let* kvs := mapM (fun k => match At keq (tdict r) k with
                                 | None => Err
                                 | Some rv => let* lv := column (tdict l) k in let* v := cat_columns lv rv in Ok (k, v)
                                 end) lk in
      let d := ofpairs keq kvs in
      if forallb (fun k => match At keq d k with Some _ => true | None => false end) rk then dict2table d else Err.
  (* table.go:213-277 catenateTables for a table and a value; leftarray: the value is left *)
  Definition catValue (leftarray : bool) (x : tval) (T : table) : outcome table :=
    let xr := match x with TScal v => RMixed (mkArr [1] [v]) | TArr r => r end in
    let* kvs := mapM (fun k => let* c := column (tdict T) k in
                               let* v := (if leftarray : bool then cat_columns xr c else cat_columns c xr) in Ok (k, v)) (keysOf (tdict T)) in
    dict2table (ofpairs keq kvs).
End Table.
