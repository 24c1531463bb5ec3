(* S_Operators.v -- vocabulary for the operators of apl/operators.  Nothing
   here refers to the model functions. *)
From Verif Require Import Base M_Array S_Array S_Structural M_Structural Eff.

(* (x1 G y1) F ((x2 G y2) F (... (xn G yn))): right-most pair first, and in each
   step G before F *)
Fixpoint inner_fold {S A} (f g : A -> A -> eff S A) (ps : list (A * A)) : eff S A :=
  match ps with
  | [] => epanic
  | [(x, y)] => g x y
  | (x, y) :: r => let! v := inner_fold f g r in let! u := g x y in f u v
  end.

(* n applications of f, one after the other *)
Fixpoint iterE {S V} (f : V -> eff S V) (n : nat) (v : V) : eff S V :=
  match n with
  | O => eret v
  | Datatypes.S m => let! w := iterE f m v in f w
  end.

(* the n-th cell of rank k of an array: the last k axes, elements in order;
   for k = 0 the cell is an array without axes, i.e. a single element *)
Definition cell_dims {A} (a : arr A) (k : Z) : list Z := skipn (length (dims a) - Z.to_nat k) (dims a).
Definition frame_dims {A} (a : arr A) (k : Z) : list Z := firstn (length (dims a) - Z.to_nat k) (dims a).
Definition cell_elems {A} (a : arr A) (k n : Z) : list A :=
  let m := size (cell_dims a k) in
  firstn (Z.to_nat m) (skipn (Z.to_nat (n * m)) (elems a)).

(* a list of strictly increasing numbers *)
Definition increasing (l : list Z) : Prop :=
  forall p q x y, p < q -> znth l p = Some x -> znth l q = Some y -> x < y.

(* [sel] lists the major cells (cells along the first axis) of a that I names
   (counted from the origin) *)
Definition cells_of {A} (origin : Z) (I : list Z) (a sel : arr A) : Prop :=
  wf sel /\ dims sel = zlen I :: tl (dims a) /\
  forall q g rest, znth I q = Some g -> inb (tl (dims a)) rest ->
    elem sel (q :: rest) = elem a (g - origin :: rest).
(* [r] is a with the major cells named by I replaced by the values vs, in the
   order of I *)
Definition placed {A} (origin : Z) (I : list Z) (a : arr A) (vs : list A) (r : arr A) : Prop :=
  wf r /\ dims r = dims a /\
  (forall q g rest, znth I q = Some g -> inb (tl (dims a)) rest ->
     elem r (g - origin :: rest) = znth vs (q * size (tl (dims a)) + pos (tl (dims a)) rest)) /\
  (forall c rest, inb (dims a) (c :: rest) -> ~ In (c + origin) I ->
     elem r (c :: rest) = elem a (c :: rest)).

(* the values of l at the marked positions, in order *)
Definition selected {A} (m : list bool) (l : list A) : list A :=
  map snd (filter (fun p => fst p) (combine m l)).

(* the n-th cell of rank k as a value: an element for k = 0 *)
Definition cell_val {A} (a : arr A) (k n : Z) : option (val A) :=
  if k =? 0 then option_map Scal (znth (elems a) n)
  else Some (Arr (mkArr (cell_dims a k) (cell_elems a k n))).
