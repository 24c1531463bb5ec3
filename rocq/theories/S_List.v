(* S_List.v -- vocabulary for nested lists: paths into a list. *)
From Verif Require Import Base M_List.
From Coq Require Import Sorted.
Open Scope Z_scope.

(* following the 0-based indexes p from v leads to w *)
Inductive at_path {A} : lval A -> list Z -> lval A -> Prop :=
| at_here v : at_path v [] v
| at_down l k v p w : znth l k = Some v -> at_path v p w -> at_path (Lst l) (k :: p) w.

(* p is a prefix of q *)
Definition prefix {X} (p q : list X) : Prop := exists r, q = p ++ r.
(* neither path contains the other *)
Definition apart (p q : list Z) : Prop := ~ prefix p q /\ ~ prefix q p.

(* paths in reading order: depth first, left to right *)
Inductive before : list Z -> list Z -> Prop :=
| before_head i j p q : i < j -> before (i :: p) (j :: q)
| before_tail i p q : before p q -> before (i :: p) (i :: q).

(* the n-th index of a list of length len, as the user writes it (origin o, negative
   indexes count from the end) means the position k *)
Definition means (o len i k : Z) : Prop := 0 <= k < len /\ (i - o = k \/ i - o < 0 /\ i - o + len = k).
(* the indexes is written by the user mean the path p in the list l *)
Inductive denotes {A} (o : Z) : list (lval A) -> list Z -> list Z -> Prop :=
| den_last l i k : means o (zlen l) i k -> denotes o l [i] [k]
| den_step l i k l' is p : means o (zlen l) i k -> znth l k = Some (Lst l') -> denotes o l' is p -> denotes o l (i :: is) (k :: p).
(* an index item that is a single integer *)
Definition single (i : Z) : litem := LIInts [1] [i].
