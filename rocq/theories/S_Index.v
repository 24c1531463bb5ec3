(* S_Index.v -- what bracket indexing and indexed assignment mean. *)
From Verif Require Import Base M_Array S_Array M_Structural M_Index.
Open Scope Z_scope.

(* l lists the coordinates (counted from 0) that the index s names on an axis of
   length d: all of them when elided; else the given ones, all within the axis *)
Definition axis_selects (origin : Z) (s : axspec) (d : Z) (l : list Z) : Prop :=
  match s with
  | AxAll => l = zseq d
  | AxInts k => map (fun i => i + origin) l = k /\ Forall (fun i => 0 <= i < d) l
  | AxBad => False
  end.
(* one index per axis *)
Inductive selects (origin : Z) : list axspec -> list Z -> list (list Z) -> Prop :=
| sel_nil : selects origin [] [] []
| sel_cons s d l spec ds sel : axis_selects origin s d l -> selects origin spec ds sel -> selects origin (s :: spec) (d :: ds) (l :: sel).
(* the cell idx that the position js of the cross product of the lists sel names *)
Inductive addresses : list (list Z) -> list Z -> list Z -> Prop :=
| adr_nil : addresses [] [] []
| adr_cons l j i sel js idx : znth l j = Some i -> addresses sel js idx -> addresses (l :: sel) (j :: js) (i :: idx).

(* the successive values that the writes ws give to position p *)
Definition writes_to {V} (p : Z) (ws : list (Z * V)) : list V := map snd (filter (fun w => fst w =? p) ws).
(* the last value written to p, or else the old one *)
Definition last_or {V} (old : option V) (l : list V) : option V := match rev l with [] => old | v :: _ => Some v end.

(* the assigned value X fits a selection with lens indexes per axis: one element,
   or the same axis lengths, axes of length 1 left out *)
Definition fits_selection {A} (X : val A) (lens : list Z) : Prop :=
  (exists v, elemsOf X = [v]) \/ filter (fun d => negb (d =? 1)) (shapeOf X) = filter (fun d => negb (d =? 1)) lens.
(* v is what X assigns to position js of the selection *)
Definition value_for {A} (X : val A) (lens js : list Z) (v : A) : Prop :=
  elemsOf X = [v] \/ zlen (elemsOf X) <> 1 /\ znth (elemsOf X) (pos lens js) = Some v.

(* a selection function F that picks, from every array with axes ds, distinct
   elements: its result has axes ds' and the element at idx comes from cell h idx *)
Record picks (F : forall B, val B -> outcome (val B)) (ds ds' : list Z) (h : list Z -> list Z) : Prop := {
  picks_in : forall idx, inb ds' idx -> inb ds (h idx);
  picks_inj : forall i1 i2, inb ds' i1 -> inb ds' i2 -> h i1 = h i2 -> i1 = i2;
  picks_val : forall B (a : arr B), wf a -> dims a = ds -> exists r, F B (Arr a) = Ok (Arr r) /\ is_array ds' (fun idx => elem a (h idx)) r }.
