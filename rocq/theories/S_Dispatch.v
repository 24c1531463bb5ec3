(* What the arguments of a primitive function look like, and which function is
   meant to serve them: stated without the domains. *)
From Coq Require Import String List ZArith Bool.
From Verif Require Import Base M_Array M_Dispatch.
Import ListNotations.
Open Scope Z_scope.

(* arguments *)
Inductive an_array : value -> Prop := an_array_intro : forall k d xs, an_array (Arr k d xs).
Inductive an_object : value -> Prop :=
| dict_object : an_object Dict | table_object : an_object Table | other_object : forall t, an_object (Obj t).
Inductive a_number : value -> Prop := a_number_intro : forall t i, a_number (Num t i).
Inductive a_function : value -> Prop := a_function_intro : forall f, a_function (Fun f).
(* an array without elements *)
Inductive no_elements : value -> Prop := no_elements_intro : forall k d, no_elements (Arr k d []).
(* no elements, and not an array of integers: the form ⍬ has *)
Inductive blank : value -> Prop := blank_intro : forall k d, k <> AInt -> blank (Arr k d []).
(* a number that stands for the integer z *)
Inductive index_of : value -> Z -> Prop := index_of_intro : forall t z, index_of (Num t (Some z)) z.
(* v can stand for integers: a number, or an array of numbers, each of which is an
   integer, or an array of integers as it is *)
Inductive indices : value -> Prop :=
| indices_scalar : forall v z, index_of v z -> indices v
| indices_ints : forall d xs, indices (Arr AInt d xs)
| indices_array : forall k d xs, Forall (fun x => exists z, index_of x z) xs -> indices (Arr k d xs).

(* a function f[A]R with an axis that has no elements, without being ⍬ or integers *)
Inductive blank_axis : value -> Prop :=
| blank_axis_intro : forall k d r, k <> AInt -> k <> AEmpty -> blank_axis (AxisOf (Arr k d []) r).

(* sym, applied to L (None: no left argument) and R, is served by the function
   called name with the arguments L' and R'; or by no function *)
Definition served (compact io : bool) (sym : string) (L : option value) (R : value) (name : string) (L' : option value) (R' : value) : Prop :=
  exists h, dispatch compact io sym L R = Ok (h, L', R') /\ hname h = name.
Definition unserved (compact io : bool) (sym : string) (L : option value) (R : value) : Prop :=
  dispatch compact io sym L R = Err.

(* what io takes for a command: a string, or an array of strings (⍬ is one) *)
Definition command (l : value) : Prop :=
  exists s, l = Str s \/ exists k d xs, l = Arr k d xs /\ (k = AStr \/ Forall (fun x => exists s, x = Str s) xs).

(* The calls in which the function that serves the arguments fails at once, with
   a failed type assertion, instead of returning a value or an error. *)
Inductive ill (io : bool) : string -> option value -> value -> Prop :=
(* + - × … with the axis ⍬ *)
| ill_axis : forall sym l A r, In sym elementarySymbols -> blank A -> ~ an_object l ->
    ~ (io = true /\ sym = "!"%string /\ command l) ->
    ill io sym (Some l) (AxisOf A r)
(* magnitude of a scalar that is neither a number nor served otherwise *)
| ill_magnitude : forall R, ~ a_number R -> ~ an_array R -> ~ an_object R -> R <> Chan -> ill io "|" None R
(* not *)
| ill_not : forall R, ~ a_number R -> ~ an_array R -> ill io "~" None R
(* residue of two scalars of one type *)
| ill_residue : forall l R, same_type l R = true -> ~ a_number l -> ~ an_array l -> ~ an_object l -> R <> Chan ->
    (forall A r, R = AxisOf A r -> ~ indices A) -> ill io "|" (Some l) R
(* and, or, nand, nor of two scalars of one type *)
| ill_logical : forall sym l R, In sym booleanSymbols -> same_type l R = true -> ~ a_number l -> ~ an_array l -> ill io sym (Some l) R
(* an axis without elements *)
| ill_reverse_axis : forall sym R, In sym ["⌽"; "⊖"]%string -> blank_axis R -> ill io sym None R
| ill_rotate_axis : forall sym l R, In sym ["⌽"; "⊖"]%string -> indices l -> blank_axis R -> ill io sym (Some l) R
| ill_ravel_axis : forall R, blank_axis R -> ill io "," None R
| ill_keys_axis : forall R, blank_axis R -> ill io "#" None R
| ill_take_axis : forall sym l R, In sym ["↑"; "↓"]%string -> indices l -> ~ blank l -> blank_axis R -> ill io sym (Some l) R
(* rotation of an array by ⍬ *)
| ill_rotate : forall sym l R, In sym ["⌽"; "⊖"]%string -> blank l -> an_array R -> ill io sym (Some l) R
| ill_rotate_along : forall sym l x n r, In sym ["⌽"; "⊖"]%string -> blank l -> an_array r ->
    (index_of x n \/ exists k m y, x = Arr k [m] [y] /\ k <> AEmpty /\ index_of y n) -> ill io sym (Some l) (AxisOf x r)
(* ⍬↑C of a channel, ⍬↓R of a list *)
| ill_take_channel : forall l, blank l -> ill io "↑" (Some l) Chan
| ill_cut : forall l d xs, blank l -> ill io "↓" (Some l) (Arr AList d xs)
(* transposing a number by anything but ⍬ *)
| ill_transpose : forall k d xs R, k <> AEmpty -> a_number R -> ill io "⍉" (Some (Arr k d xs)) R
(* ⍸⍬ *)
| ill_where : forall k d, k <> ABool -> k <> AInt -> ill io "⍸" None (Arr k d [])
(* ⍪⍬ *)
| ill_table : forall k xs, ill io "⍪" None (Arr k [] xs).

(* The same for operators: sym with the operands LO and RO, the derived function
   called with L and R. *)
Inductive ill_op : string -> value -> option value -> option value -> value -> Prop :=
(* ⍬/R and ⍬⌿R (a monadic operator ignores ro) *)
| ill_replicate : forall sym lo ro R, In sym ["/"; "⌿"]%string -> blank lo -> ill_op sym lo ro None R
(* f⍤⍬ *)
| ill_rank : forall f g L R, blank g -> ill_op "⍤" (Fun f) (Some g) L R
(* f@⍬ *)
| ill_at : forall f g L R, blank g -> ill_op "@" f (Some g) L R.

(* arrays as the interpreter builds them: as many elements as the shape says
   (M_Array.Prod: no axes means no elements), of the type the array is for;
   booleans and integers are indices *)
Definition fits_kind (k : akind) (x : value) : Prop :=
  match k with
  | ABool => x = Num NBool (Some 0) \/ x = Num NBool (Some 1)
  | AInt | AImg => exists z, x = Num NInt (Some z)
  | AStr => exists s, x = Str s
  | AFloat => exists i, x = Num NFloat i
  | AComplex => exists i, x = Num NComplex i
  | ATime => exists i, x = Num NTime i
  | AMixed | AList => True
  | AEmpty => False
  end.
Definition proper_number (v : value) : Prop :=
  match v with
  | Num NBool i => i = Some 0 \/ i = Some 1
  | Num NInt i => exists z, i = Some z
  | _ => True
  end.
Definition proper (v : value) : Prop :=
  match v with
  | Arr k d xs => (k = AEmpty -> d = []) /\ zlen xs = Prod d /\ Forall (fun n => 0 <= n) d /\ Forall (fits_kind k) xs /\ Forall proper_number xs
  | _ => proper_number v
  end.

(* a scalar is taken for a vector with one element *)
Inductive as_array : value -> value -> Prop :=
| as_array_is : forall k d xs, as_array (Arr k d xs) (Arr k d xs)
| as_array_one : forall k v, ~ an_array v -> as_array v (Arr k [1] [v]).
(* the integers of A, in the shape of A: a scalar counts as a vector of one element,
   an array without elements is ⍬ unless it already is an array of integers *)
Inductive as_integers : value -> value -> Prop :=
| as_integers_none : forall A, blank A -> as_integers A (Arr AEmpty [] [])
| as_integers_is : forall d xs, as_integers (Arr AInt d xs) (Arr AInt d xs)
| as_integers_scalar : forall v z, index_of v z -> as_integers v (Arr AInt [1] [Num NInt (Some z)])
| as_integers_array : forall k d xs zs, k <> AInt -> xs <> [] -> Forall2 index_of xs zs ->
    as_integers (Arr k d xs) (Arr AInt d (map (fun z => Num NInt (Some z)) zs)).
(* the elements of an array as a vector, in order *)
Inductive as_vector : value -> value -> Prop :=
| as_vector_is : forall k n xs, as_vector (Arr k [n] xs) (Arr k [n] xs)
| as_vector_one : forall v, ~ an_array v -> as_vector v (Arr AMixed [1] [v])
| as_vector_none : forall k d, length d <> 1%nat -> as_vector (Arr k d []) (Arr AEmpty [] [])
| as_vector_ravel : forall k j d xs, length d <> 1%nat -> xs <> [] -> as_vector (Arr k d xs) (Arr j [zlen xs] xs).
(* at most one axis is longer than one element *)
Definition one_long_axis (d : list Z) : Prop := exists pre n post, d = pre ++ n :: post /\ Forall (eq 1) pre /\ Forall (eq 1) post.

(* Registering one more function for the symbol of h. *)
Definition registers (hs : list handler) (h : handler) : list handler := hs ++ [h].
