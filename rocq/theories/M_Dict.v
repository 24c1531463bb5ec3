(* M_Dict.v -- model of dictionaries: apl/object.go, apl/primitives/dict.go, the
   object functions of apl/primitives/index.go, apl/primitives/table.go and
   apl/primitives/transpose.go, and assignment to objects (apl/operators/assign.go).

   Keys are of a type K with a boolean equality keq: the Go values that can be keys of
   a map and compare by value (strings, the number types of the default tower,
   booleans).  Simplifications: keys without value equality (arbitrary precision
   numbers compare by pointer, arrays cannot be hashed, NaN) are not modelled; Copy is
   the identity (sharing is the subject of M_Heap.v). *)
From Verif Require Import Base Eff.
Open Scope Z_scope.

Section Dict.
  Context {K V : Type} (keq : K -> K -> bool).

  (* a Go map; the order of the pairs is never observed *)
  Definition gmap := list (K * V).
  Fixpoint mget (m : gmap) (k : K) : option V :=
    match m with [] => None | (k', v) :: m' => if keq k' k then Some v else mget m' k end.
  Fixpoint mset (m : gmap) (k : K) (v : V) : gmap :=
    match m with [] => [(k, v)] | (k', v') :: m' => if keq k' k then (k, v) :: m' else (k', v') :: mset m' k v end.

  (* object.go:47-50 Dict *)
  Record dict := mkDict { keysOf : list K; mapOf : gmap }.
  (* object.go:52-61 Keys, At *)
  Definition At (d : dict) (k : K) : option V := mget (mapOf d) k.
  (* object.go:66-75 Set *)
  Definition DSet (d : dict) (k : K) (v : V) : dict :=
    mkDict (match mget (mapOf d) k with None => keysOf d ++ [k] | Some _ => keysOf d end) (mset (mapOf d) k v).

  (* a value used as a key or as a set of keys: a scalar or an array of keys.  The
     EmptyArray has the shape []. *)
  Inductive keyarg := KOne (k : K) | KArr (shape : list Z) (ks : list K).
  (* a value on the right: a value that is no Array, or an Array with its elements *)
  Context (asArray : V -> option (list Z * list V)).

  (* dict.go:64-105 dict; ls[0] and rs[0] are guarded by the tests of the rank *)
  Definition mkdict (L : keyarg) (R : V) : outcome dict :=
    match L with
    | KOne k => Ok (mkDict [k] [(k, R)])
    | KArr ls ks =>
        if negb (zlen ls =? 1) then Err else
        let* n := zat ls 0 in
        if n <? 0 then Panic else
        let '(rs, vs) := match asArray R with Some a => a | None => ([n], repeat R (Z.to_nat n)) end in
        if negb (zlen rs =? 1) then Err else
        let* m := zat rs 0 in
        if negb (m =? n) then Err else
        let* kvs := mapM (fun i => let* l := zat ks i in let* v := zat vs i in Ok (l, v)) (zseq (zlen ks)) in
        Ok (mkDict (map fst kvs) (fold_left (fun m kv => mset m (fst kv) (snd kv)) kvs []))
    end.

  (* index.go:336-369 objIndex with one index *)
  Definition objIndex (d : dict) (spec : keyarg) : outcome (V + dict) :=
    match spec with
    | KOne k => match At d k with Some v => Ok (inl v) | None => Err end
    | KArr ls ks =>
        if negb (zlen ls =? 1) then Err else
        let* n := zat ls 0 in
        if n <? 0 then Panic else
        let* kvs := mapM (fun i => let* k := zat ks i in
                                   match At d k with Some v => Ok (k, v) | None => Err end) (zseq n) in
        Ok (inr (mkDict (map fst kvs) (fold_left (fun m kv => mset m (fst kv) (snd kv)) kvs [])))
    end.
End Dict.
Arguments mkDict {K V}. Arguments keysOf {K V}. Arguments mapOf {K V}. Arguments dict : clear implicits. Arguments gmap : clear implicits.
Arguments KOne {K}. Arguments KArr {K}.

Section Assign.
  Context {K V : Type} (keq : K -> K -> bool) (asArray : V -> option (list Z * list V)) (empty : V).

  (* index.go:120-123: the Go map from keys to indexes *)
  Definition keyindex (origin : Z) (ks : list K) : gmap K Z :=
    fold_left (fun m ki => mset keq m (fst ki) (snd ki + origin)) (combine ks (zseq (zlen ks))) [].
  (* index.go:126-138, 143-160: one key; a missing key of a Dict is created with an
     empty value.  len(keys) counts the map, not the key list. *)
  Definition sel_key (origin : Z) (st : gmap K Z * dict K V) (k : K) : Z * (gmap K Z * dict K V) :=
    let '(m, d) := st in
    match mget keq m k with
    | Some i => (i, (m, d))
    | None => let i := zlen m + origin in (i, (mset keq m k i, DSet keq d k empty))
    end.
  Fixpoint sel_keys (origin : Z) (st : gmap K Z * dict K V) (ks : list K) : list Z * (gmap K Z * dict K V) :=
    match ks with
    | [] => ([], st)
    | k :: ks' => let '(i, st) := sel_key origin st k in let '(r, st) := sel_keys origin st ks' in (i :: r, st)
    end.
  (* index.go:111-163 objSelection with one index, for a Dict *)
  Definition objSelection (origin : Z) (spec : keyarg) (d : dict K V) : list Z * dict K V :=
    let ks := match spec with KOne k => [k] | KArr _ ks => ks end in
    let '(r, (_, d')) := sel_keys origin (keyindex origin (keysOf d), d) ks in (r, d').

  (* assign.go:442-464: the loop of assignObject; keys := obj.Keys() is evaluated once
     before the loop.  The state is the dictionary together with the interpreter. *)
  Fixpoint assign_loop {S} (origin : Z) (keys : list K) (f : option (option V -> V -> eff S V)) (R : V) (vec : option (list V))
    (i : Z) (ints : list Z) (d : dict K V) : S -> (outcome unit * dict K V) * S :=
    match ints with
    | [] => fun s => ((Ok tt, d), s)
    | j :: ints' => fun s =>
        let n := j - origin in
        if (n <? 0) || (zlen keys <=? n) then ((Err, d), s) else
        match znth keys n with
        | None => ((Panic, d), s)
        | Some k =>
            match (match vec with
                   | None => Ok R
                   | Some vs => if (i <? 0) || (zlen vs <=? i) then Err else zat vs i
                   end) with
            | Err => ((Err, d), s)
            | Panic => ((Panic, d), s)
            | Ok v =>
                match (match f with None => (Ok v, s) | Some f => f (At keq d k) v s end) with
                | (Ok v, s) => assign_loop origin keys f R vec (i + 1) ints' (DSet keq d k v) s
                | (Err, s) => ((Err, d), s)
                | (Panic, s) => ((Panic, d), s)
                end
            end
        end
    end.
  (* assign.go:424-466 assignObject, indexes that are not depth indexes (assign.go:425-429
     concern negative indexes, see M_Dict depth below) *)
  Definition assignObject {S} (origin : Z) (ints : list Z) (f : option (option V -> V -> eff S V)) (R : V) (d : dict K V)
    : S -> (outcome unit * dict K V) * S :=
    match asArray R with
    | Some (_, vs) =>
        if 1 <? zlen ints then
          if zlen ints =? zlen vs then assign_loop origin (keysOf d) f R (Some vs) 0 ints d
          else fun s => ((Err, d), s)
        else assign_loop origin (keysOf d) f R None 0 ints d
    | None => assign_loop origin (keysOf d) f R None 0 ints d
    end.
  (* D[spec]←R and D[spec]f←R: selection, then assignment *)
  Definition dict_assign {S} (origin : Z) (spec : keyarg) (f : option (option V -> V -> eff S V)) (R : V) (d : dict K V)
    : S -> (outcome unit * dict K V) * S :=
    let '(ints, d') := objSelection origin spec d in assignObject origin ints f R d'.

  (* table.go:12-54 table1 for a dictionary; apply1 is the scalar function on a value *)
  Definition table1 (apply1 : V -> outcome V) (d : dict K V) : outcome (dict K V) :=
    let* kvs := mapM (fun k => match At keq d k with
                               | None => Err
                               | Some v => let* w := apply1 v in Ok (k, w)
                               end) (keysOf d) in
    Ok (mkDict (map fst kvs) (fold_left (fun m kv => mset keq m (fst kv) (snd kv)) kvs [])).
  (* table.go:57-135 tableBoth for dictionaries; zero: the neutral value used for a missing
     key.  A nil value would make the function panic. *)
  Definition tableBoth (apply2 : V -> V -> outcome V) (zero : V -> V) (l r : dict K V) : outcome (dict K V) :=
    let* a := mapM (fun k => match At keq l k with
                             | None => Panic
                             | Some lv => let* w := apply2 lv (match At keq r k with Some rv => rv | None => zero lv end) in Ok (k, w)
                             end) (keysOf l) in
    let* b := mapM (fun k => match At keq l k with
                             | Some _ => Ok None
                             | None => match At keq r k with
                                       | None => Panic
                                       | Some rv => let* w := apply2 (zero rv) rv in Ok (Some (k, w))
                                       end
                             end) (keysOf r) in
    let kvs := a ++ flat_map (fun o => match o with Some kv => [kv] | None => [] end) b in
    Ok (mkDict (map fst kvs) (fold_left (fun m kv => mset keq m (fst kv) (snd kv)) kvs [])).
  (* table.go:139-184 tableAny for a dictionary and a value; leftarray: the value is left *)
  Definition tableAny (apply2 : V -> V -> outcome V) (leftarray : bool) (x : V) (d : dict K V) : outcome (dict K V) :=
    let* kvs := mapM (fun k => match At keq d k with
                               | None => Panic
                               | Some v => let* w := (if leftarray then apply2 x v else apply2 v x) in Ok (k, w)
                               end) (keysOf d) in
    Ok (mkDict (map fst kvs) (fold_left (fun m kv => mset keq m (fst kv) (snd kv)) kvs [])).

  (* table.go:284-345 catenateTwoTables for two dictionaries; first: along the first axis
     (D⍪E); cat is the catenation of two values.  Only the map d.M decides if a key is
     new, also for keys appended before. *)
  Definition cat_first_step (acc : dict K V) (kv : K * V) : dict K V :=
    mkDict (match mget keq (mapOf acc) (fst kv) with None => keysOf acc ++ [fst kv] | Some _ => keysOf acc end)
           (mset keq (mapOf acc) (fst kv) (snd kv)).
  Definition cat_last_step (acc : dict K V) (kv : K * V) : dict K V :=
    match mget keq (mapOf acc) (fst kv) with
    | Some _ => acc
    | None => mkDict (keysOf acc ++ [fst kv]) (mset keq (mapOf acc) (fst kv) (snd kv))
    end.
  Definition atM (d : dict K V) (k : K) : outcome (K * V) := match At keq d k with Some v => Ok (k, v) | None => Panic end.
  Definition ofpairs (kvs : list (K * V)) : dict K V := mkDict (map fst kvs) (fold_left (fun m kv => mset keq m (fst kv) (snd kv)) kvs []).
  Definition catDicts (first : bool) (cat : V -> V -> outcome V) (l r : dict K V) : outcome (dict K V) :=
    if first then
      let* a := mapM (atM l) (keysOf l) in
      let* b := mapM (atM r) (keysOf r) in
      Ok (fold_left cat_first_step b (ofpairs a))
    else
      let* a := mapM (fun k => let* kv := atM l k in
                               match At keq r k with
                               | None => Ok kv
                               | Some rv => let* v := cat (snd kv) rv in Ok (k, v)
                               end) (keysOf l) in
      let* b := mapM (atM r) (keysOf r) in
      Ok (fold_left cat_last_step b (ofpairs a)).
End Assign.

(* -------- indexing at depth: D[k1;k2;..] -------- *)
(* a value that is a dictionary of values, or anything else *)
Inductive oval (K A : Type) := Leaf (a : A) | Obj (ks : list K) (m : list (K * oval K A)).
Arguments Leaf {K A}. Arguments Obj {K A}.
Section Depth.
  Context {K A : Type} (keq : K -> K -> bool).
  Local Notation V := (oval K A).
  Definition asDict (v : V) : option (dict K V) := match v with Obj ks m => Some (mkDict ks m) | Leaf _ => None end.
  Definition ofDict (d : dict K V) : V := Obj (keysOf d) (mapOf d).
  Context (asArray : V -> option (list Z * list V)).
  (* indexing an array or a list inside the dictionary: M_Index.v, M_List.v *)
  Context (leaf_index : list (@keyarg K) -> A -> outcome V).

  (* index.go:371-393 objDepthIndex (and objIndex for the last index) *)
  Fixpoint objDepthIndex (spec : list (@keyarg K)) (d : dict K V) : outcome V :=
    match spec with
    | [] => Panic
    | [s] => let* r := objIndex keq d s in
             match r with inl v => Ok v | inr e => Ok (ofDict e) end
    | KOne k :: spec' =>
        match At keq d k with
        | None => Err
        | Some v => match asDict v with
                    | Some d' => objDepthIndex spec' d'
                    | None => match v with Leaf a => leaf_index spec' a | Obj _ _ => Err end
                    end
        end
    | KArr _ _ :: _ => Panic
    end.

  (* index.go:176-186: the last position of the key *)
  Definition lastpos (ks : list K) (k : K) : Z :=
    fold_left (fun idx ki => if keq (fst ki) k then snd ki else idx) (combine ks (zseq (zlen ks))) (-1).
  (* index.go:168-223 objDepthSelection for a path of keys through dictionaries *)
  Fixpoint objDepthSelection (spec : list K) (d : dict K V) : outcome (list Z) :=
    match spec with
    | [] => Panic
    | k :: spec' =>
        match At keq d k with
        | None => Err
        | Some v =>
            let idx := lastpos (keysOf d) k in
            if idx <? 0 then Err else
            match spec' with
            | [] => Ok [-1 - idx]
            | _ => match asDict v with
                   | Some d' => let* r := objDepthSelection spec' d' in Ok (-1 - idx :: r)
                   | None => Err   (* arrays and lists: not modelled *)
                   end
            end
        end
    end.
  (* assign.go:424-429 and 468-500 assignObject / assignObjectDepth: ints is the result of
     objDepthSelection.  The inner object is changed in place and then set again. *)
  Fixpoint assignDepth {S} (origin : Z) (ints : list Z) (f : option (option V -> V -> eff S V)) (R : V) (d : dict K V)
    : S -> (outcome unit * dict K V) * S :=
    match ints with
    | [] => fun s => ((Panic, d), s)
    | i :: ints' =>
        match ints' with
        | [] => assignObject keq asArray origin [(if i <? 0 then -1 - i + origin else i)] f R d
        | _ :: _ => fun s =>
            if 0 <=? i then assignObject keq asArray origin ints f R d s else
            let k := -1 - i in
            if (k <? 0) || (zlen (keysOf d) <=? k) then ((Err, d), s) else
            match znth (keysOf d) k with
            | None => ((Panic, d), s)
            | Some key =>
                match At keq d key with
                | None => ((Err, d), s)
                | Some v =>
                    match asDict v with
                    | None => ((Err, d), s)   (* arrays and lists: not modelled *)
                    | Some o =>
                        match assignDepth origin ints' f R o s with
                        | ((Ok tt, o'), s') => ((Ok tt, DSet keq d key (ofDict o')), s')
                        | ((Err, o'), s') => ((Err, mkDict (keysOf d) (mset keq (mapOf d) key (ofDict o'))), s')
                        | ((Panic, o'), s') => ((Panic, mkDict (keysOf d) (mset keq (mapOf d) key (ofDict o'))), s')
                        end
                    end
                end
            end
        end
    end.
  Definition dict_assign_depth {S} (origin : Z) (spec : list K) (f : option (option V -> V -> eff S V)) (R : V) (d : dict K V)
    : S -> (outcome unit * dict K V) * S :=
    match objDepthSelection spec d with
    | Ok ints => assignDepth origin ints f R d
    | Err => fun s => ((Err, d), s)
    | Panic => fun s => ((Panic, d), s)
    end.
End Depth.
