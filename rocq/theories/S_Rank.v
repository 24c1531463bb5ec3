(* S_Rank.v -- the common shape of results of different shapes *)
From Verif Require Import Base M_Array S_Array M_Structural.

(* the axes are aligned at the end *)
Definition from_end (ds : list Z) (j : Z) : option Z := znth (rev ds) j.
(* the longest of each axis *)
Definition common {A} (rs : list (val A)) (cs : list Z) : Prop :=
  (forall b j d, In (Arr b) rs -> from_end (dims b) j = Some d -> exists c, from_end cs j = Some c /\ d <= c) /\
  (forall j c, from_end cs j = Some c -> exists b, In (Arr b) rs /\ from_end (dims b) j = Some c).
(* the elements of v in the shape cs: a scalar is repeated; an array is in the first place of the
   axes that it does not have, and starts at the first place of those it has; the rest is filled *)
Definition conformed {A} (zero : A) (cs : list Z) (v : val A) (l : list A) : Prop :=
  zlen l = size cs /\
  match v with
  | Scal x => forall y, In y l -> y = x
  | Emp => False
  | Arr b => forall lead rest, length rest = length (dims b) -> inb cs (lead ++ rest) ->
      (Forall (eq 0) lead /\ inb (dims b) rest -> znth l (pos cs (lead ++ rest)) = elem b rest) /\
      (~ (Forall (eq 0) lead /\ inb (dims b) rest) -> znth l (pos cs (lead ++ rest)) = Some zero)
  end.
Definition proper_result {A} (v : val A) : Prop := match v with Scal _ => True | Arr b => wf b | Emp => False end.
