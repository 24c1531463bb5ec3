(* S_Search.v -- vocabulary for searching and sorting.  Nothing here refers to
   the model functions. *)
From Coq Require Import Permutation.
From Verif Require Import Base M_Array S_Array.

(* k is the first position of l whose element satisfies P, or the length of l
   if there is none *)
Definition first_index {A} (P : A -> Prop) (l : list A) (k : Z) : Prop :=
  (0 <= k < zlen l /\ (exists x, znth l k = Some x /\ P x) /\
   forall j y, 0 <= j < k -> znth l j = Some y -> ~ P y) \/
  (k = zlen l /\ forall y, In y l -> ~ P y).

(* an equivalence, as a boolean test *)
Definition equivalence {A} (eqv : A -> A -> bool) : Prop :=
  (forall x, eqv x x = true) /\
  (forall x y, eqv x y = eqv y x) /\
  (forall x y z, eqv x y = true -> eqv y z = true -> eqv x z = true).

(* the elements of l that are not equivalent to any earlier element, in order *)
Definition firsts {A} (eqv : A -> A -> bool) (l : list A) : list A :=
  flat_map (fun i => match znth l i with
                     | Some x => if existsb (eqv x) (firstn (Z.to_nat i) l) then [] else [x]
                     | None => []
                     end) (zseq (zlen l)).

(* number of elements of l that satisfy P *)
Definition countb {A} (P : A -> bool) (l : list A) : Z := zlen (filter P l).

(* lt is a strict weak order on the elements satisfying P *)
Definition swo_on {A} (P : A -> Prop) (lt : A -> A -> bool) : Prop :=
  (forall x, P x -> lt x x = false) /\
  (forall x y z, P x -> P y -> P z -> lt x y = true -> lt y z = true -> lt x z = true) /\
  (forall x y z, P x -> P y -> P z -> lt x y = false -> lt y z = false -> lt x z = false).

(* the contract of Go's sort.Sort: if Less is a strict weak order on the data,
   the result is a reordering in which no later element is less than an
   earlier one.  Nothing is said about the order of equal elements. *)
Definition go_sort (srt : forall A : Type, (A -> A -> bool) -> list A -> list A) : Prop :=
  forall (A : Type) (less : A -> A -> bool) (l : list A),
    swo_on (fun x => In x l) less ->
    Permutation l (srt A less l) /\
    forall i j x y, i < j -> znth (srt A less l) i = Some x -> znth (srt A less l) j = Some y -> less y x = false.

(* x comes before y in lexicographic order: at the first place where they
   differ in order, the element of x is the smaller one *)
Definition lex_lt {A} (lt : A -> A -> bool) (x y : list A) : Prop :=
  exists k a b, znth x k = Some a /\ znth y k = Some b /\ lt a b = true /\
    forall j c d, 0 <= j < k -> znth x j = Some c -> znth y j = Some d -> lt c d = false /\ lt d c = false.

(* the n-th major cell of a, flattened *)
Definition major_cell {A} (a : arr A) (n : Z) : list A :=
  let m := size (tl (dims a)) in
  firstn (Z.to_nat m) (skipn (Z.to_nat (n * m)) (elems a)).

(* the pattern p occurs in a at index idx: p's extent fits and all elements
   are equal (f gives the comparison) *)
Definition occurs_at {A} (eqb : A -> A -> bool) (p a : arr A) (idx : list Z) : Prop :=
  forall o x, inb (dims p) o -> elem p o = Some x ->
    inb (dims a) (map (fun q => fst q + snd q) (combine idx o)) /\
    exists y, elem a (map (fun q => fst q + snd q) (combine idx o)) = Some y /\ eqb x y = true.
