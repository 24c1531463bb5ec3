(* M_Programs.v -- the programs of TESTS.md:3422-3480 (Primes, Conway-completeness), composed
   from the models of the primitives and operators they use.  An expression is evaluated from
   right to left (C59, C90); every step gets the values the step before has made: the shape and
   the elements (view) of its array.  Functions have no effects here (the state is unit). *)
From Verif Require Import Base Eff M_Array M_Structural M_Number M_Scalar M_Search M_Reduce M_Operators M_Stencil.
Open Scope Z_scope.

Section Programs.
  Context {P : Type} (M : methods P) (t : tower P) (has_uniform : ntype -> bool).
  Local Notation sv := (sval P).
  Definition int (z : Z) : sv := VNum (NI z).
  (* the value of a scalar function, as an argument of the next one *)
  Definition value_of (r : sres P) : val sv := match r with ResS v => Scal v | ResA REmpty => Emp | ResA r => Arr (view r) end.
  (* L f R for the scalar functions + - × | = ∧ : elementary.go:59-70, compare.go:20-47, boolean.go:25-37 *)
  Definition dy (f : sv -> option sv -> outcome (option sv)) (L R : val sv) : outcome (val sv) :=
    omap value_of (scalar2 M t has_uniform (arith2 M t f) L R).
  (* ~R: boolean.go:38-49 *)
  Definition not_ (R : val sv) : outcome (val sv) := omap value_of (scalar1 M t has_uniform (arith1 M t (logicalNot M)) R).
  (* the same functions as operands *)
  Definition op2 (f : sv -> option sv -> outcome (option sv)) (x y : sv) : eff unit sv := elift (arith2 M t f x y).
  Definition pure {A} (e : eff unit A) : outcome A := fst (e Datatypes.tt).
  (* ⍳n: the integers of iota.go:36-48 *)
  Definition iota (origin n : Z) : outcome (val sv) :=
    let* v := interval origin n in Ok (match v with Scal z => Scal (int z) | Emp => Emp | Arr a => Arr (amap int a) end).
  (* the left argument of ⌿ as array of indexes: domain/array.go ToIndexArray *)
  Definition as_index (v : sv) : outcome Z := match v with VNum n => match ToIndex M n with Some i => Ok i | None => Err end | _ => Err end.
  Definition indexes (v : val sv) : outcome (arr Z) :=
    match v with
    | Scal x => let* i := as_index x in Ok (mkArr [1] [i])
    | Emp => Ok (mkArr [0] [])
    | Arr a => let* l := mapM as_index (elems a) in Ok (mkArr (dims a) l)
    end.
  Definition plus := add2 M.
  Definition eq_ := compare M CEq.

  (* TESTS.md:3425  f←{(2=+⌿0=X∘.|X)⌿X←⍳⍵} *)
  Definition primes (n : Z) : outcome (val sv) :=
    let* X := iota 1 n in
    let* T := pure (outer (op2 (abs2 M t)) X X) in
    let* E := dy eq_ (Scal (int 0)) T in
    let* W := pure (reduct (op2 plus) (Some (int 0)) E 0) in
    let* B := dy eq_ (Scal (int 2)) W in
    let* K := indexes B in
    Replicate (int 0) K X 0.

  (* isEqual (iota.go:228-252), as ∊ uses it *)
  Definition same (x y : sv) : bool := match isEqual M t x y with Ok b => b | _ => false end.
  (* TESTS.md:3428  ⎕IO←0 ⋄ f←{(~X∊X∘.×X)⌿X←2↓⍳⍵} *)
  Definition sieve (n : Z) : outcome (val sv) :=
    let* Y := iota 0 n in
    let* X := fst (drop (int 0) (int 0) (Arr (mkArr [1] [2])) Y None) in
    let* T := pure (outer (op2 (mul2 M)) X X) in
    let B := match membership same X T with Scal b => Scal (VNum (NB b)) | Emp => Emp | Arr a => Arr (amap (fun b => VNum (NB b)) a) end in
    let* N := not_ B in
    let* K := indexes N in
    Replicate (int 0) K X 0.

  (* TESTS.md:3448  l←{3=S-⍵∧4=S←({+/,⍵}⌺3 3)⍵} *)
  Definition around (win : arr sv) : eff unit (val sv) := reduct (op2 plus) (Some (int 0)) (ravel (Arr win)) (-1).
  Definition life (A : val sv) : outcome (val sv) :=
    let* W := pure (stencil (int 0) (fun _ => around) (Some (mkArr [2] [3; 3])) A) in
    let* E := dy eq_ (Scal (int 4)) W in
    let* B := dy (logical M LAnd) A E in
    let* D := dy (sub2 M) W B in
    dy eq_ (Scal (int 3)) D.
  (* (l⍣n)A *)
  Definition generations (n : Z) (A : val sv) : outcome (val sv) := pure (power_n (fun v => elift (life v)) n A).
End Programs.
