(* S_Dict.v -- vocabulary for dictionaries. *)
From Verif Require Import Base M_Dict.
Open Scope Z_scope.

(* keys are compared by value *)
Definition key_equality {K} (keq : K -> K -> bool) : Prop := forall a b, keq a b = true <-> a = b.
(* every key is listed once, and the listed keys are those that have a value *)
Definition proper {K V} (keq : K -> K -> bool) (d : dict K V) : Prop :=
  NoDup (keysOf d) /\ forall k, In k (keysOf d) <-> exists v, At keq d k = Some v.
(* ks are the elements of l without repetitions, in the order of their first occurrence *)
Inductive first_order {K} : list K -> list K -> Prop :=
| fo_nil : first_order [] []
| fo_new l ks k : first_order l ks -> ~ In k l -> first_order (l ++ [k]) (ks ++ [k])
| fo_old l ks k : first_order l ks -> In k l -> first_order (l ++ [k]) ks.
(* v is the value that the history h gave to k last *)
Definition last_given {K V} (h : list (K * V)) (k : K) (v : V) : Prop :=
  exists h1 h2, h = h1 ++ (k, v) :: h2 /\ ~ In k (map fst h2).
(* the pairs assigned by D[spec]←R: a value R that is no array goes to every key, an array
   to several keys is distributed, an array to a single key is its value *)
Inductive assigns {K V} (asArray : V -> option (list Z * list V)) : @keyarg K -> V -> list (K * V) -> Prop :=
| as_one k R : assigns asArray (KOne k) R [(k, R)]
| as_single sh k R : assigns asArray (KArr sh [k]) R [(k, R)]
| as_scalar sh ks R : asArray R = None -> assigns asArray (KArr sh ks) R (map (fun k => (k, R)) ks)
| as_each sh ks R rs vs : asArray R = Some (rs, vs) -> zlen ks = zlen vs -> zlen ks > 1 -> assigns asArray (KArr sh ks) R (combine ks vs).
(* following the keys p from v leads to w *)
Inductive at_keys {K A} (keq : K -> K -> bool) : oval K A -> list K -> oval K A -> Prop :=
| ak_here v : at_keys keq v [] v
| ak_down ks m k v p w : At keq (mkDict ks m) k = Some v -> at_keys keq v p w -> at_keys keq (Obj ks m) (k :: p) w.
(* all dictionaries in the tree are proper *)
Definition proper_tree {K A} (keq : K -> K -> bool) (v : oval K A) : Prop :=
  forall p ks m, at_keys keq v p (Obj ks m) -> proper keq (mkDict ks m).
(* neither path contains the other *)
Definition keys_apart {K} (p q : list K) : Prop := (forall r, q <> p ++ r) /\ (forall r, p <> q ++ r).
