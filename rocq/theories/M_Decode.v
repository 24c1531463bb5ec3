(* M_Decode.v -- model of apl/primitives/decode.go (⊥ decode, ⊤ encode).

   The elements are scalars of an arbitrary type V.  The arithmetic that the
   code obtains from arith1/arith2 (elementary.go) is a record of operations, so
   that the model can be used with every number tower (M_Number).  The final
   UnifyArray changes the representation only (C53). *)
From Verif Require Import Base M_Array M_Structural Eff M_Operators.
Open Scope Z_scope.

(* decode.go:55,126-129,173-178 and the primitives + and × of line 70 *)
Record arith (V : Type) := mkArith {
  a_add : V -> V -> outcome V;          (* + *)
  a_mul : V -> V -> outcome V;          (* arith2("×", mul2) *)
  a_sub : V -> V -> outcome V;          (* arith2("-", sub2) *)
  a_div : V -> V -> outcome V;          (* arith2("÷", div2) *)
  a_mod : V -> V -> outcome V;          (* arith2("|", abs2) *)
  a_floor : V -> outcome V;             (* arith1("⌊", min) *)
  a_zerop : V -> outcome bool;          (* arith2("=", compare("="))(a, x, apl.Int(0)), asserted to be a Bool *)
  a_int : Z -> V                        (* apl.Int *)
}.
Arguments a_add {V}. Arguments a_mul {V}. Arguments a_sub {V}. Arguments a_div {V}.
Arguments a_mod {V}. Arguments a_floor {V}. Arguments a_zerop {V}. Arguments a_int {V}. Arguments mkArith {V}.

(* s.Values[i] = v *)
Definition store {A} (l : list A) (i : Z) (v : A) : outcome (list A) :=
  if (i <? 0) || (zlen l <=? i) then Panic else Ok (zupd l i v).

Section DECODE.
  Context {V : Type} (ops : arith V).
  Local Notation one := (a_int ops 1).

  (* decode.go:57-59: for k := 0; k < N-1; k++ { p[off+k] = p[off+k+1] }, todo = N-1-k *)
  Fixpoint shift (todo : nat) (i : Z) (p : list V) : outcome (list V) :=
    match todo with
    | O => Ok p
    | S m => let* v := zat p (i + 1) in let* p := store p i v in shift m (i + 1) p
    end.
  (* decode.go:61-67: for k := off+N-1; k >= off+1; k--, todo = k - off *)
  Fixpoint mulscan (todo : nat) (off : Z) (p : list V) : outcome (list V) :=
    match todo with
    | O => Ok p
    | S m =>
        let k := off + Z.of_nat todo in
        let* x := zat p k in
        let* y := zat p (k - 1) in
        let* v := a_mul ops x y in
        let* p := store p (k - 1) v in
        mulscan m off p
    end.
  (* decode.go:56-68: the body for one off *)
  Definition power_block (N off : Z) (p : list V) : outcome (list V) :=
    let* p := shift (Z.to_nat (N - 1)) off p in
    let* p := store p (off + N - 1) one in
    mulscan (Z.to_nat (N - 1)) off p.
  (* decode.go:56: for off := 0; off < len(p.Values); off += N; the loop does not
     end when N is 0 and there are values, which cannot be as N is an axis of p *)
  Fixpoint power_loop (fuel : nat) (N off : Z) (p : list V) : outcome (list V) :=
    if zlen p <=? off then Ok p else
    match fuel with
    | O => Ok p
    | S f => let* p := power_block N off p in power_loop f N (off + N) p
    end.
  (* decode.go:74-87 extendAxis *)
  Definition extendAxis (ar : arr V) (axis n : Z) : outcome (arr V) :=
    let* ic := NewIdxConverter (dims ar) in
    fill (zupd (dims ar) axis n) (fun ridx => At ar (ic_index ic (zupd ridx axis 0))).
  (* domain/array.go:25-36 ToArray *)
  Definition toArray (v : val V) : arr V := match v with Scal x => mkArr [1] [x] | _ => asArr v end.

  (* decode.go:26-71 decode.  The arithmetic has no effects on the interpreter. *)
  Definition decode (L R : val V) : outcome (val V) :=
    let al := toArray L in
    let ar := toArray R in
    let* n := zat (dims al) (zlen (dims al) - 1) in
    let* r0 := zat (dims ar) 0 in
    let* lr :=
      if n =? r0 then Ok (al, ar)
      else if n =? 1 then let* al := extendAxis al (zlen (dims al) - 1) r0 in Ok (al, ar)
      else if r0 =? 1 then let* ar := extendAxis ar 0 n in Ok (al, ar)
      else Err in
    let '(al, ar) := lr in
    let* N := zat (dims al) (zlen (dims al) - 1) in
    let* p := power_loop (length (elems al)) N 0 (elems al) in
    fst (inner (fun x y s => (a_add ops x y, s)) (fun x y s => (a_mul ops x y, s)) (Arr (mkArr (dims al) p)) (Arr ar) tt).

  (* decode.go:134-159: the loop i = len(Z)-1 .. 0 of encodeVecScalar; c is C[i+1],
     Z the digits of the positions above i *)
  Fixpoint evs_loop (L : list V) (todo : nat) (c : V) (Z : list V) : outcome (list V) :=
    match todo with
    | O => Ok Z
    | S i =>
        let* l := zat L (Z.of_nat i) in
        let* v := a_mod ops l c in
        let* iszero := a_zerop ops l in
        let* c :=
          if iszero : bool then Ok (a_int ops 0)
          else let* d := a_sub ops c v in a_div ops d l in
        evs_loop L i c (v :: Z)
    end.
  (* decode.go:125-161 encodeVecScalar *)
  Definition encodeVecScalar (L : list V) (R : V) : outcome (arr V) :=
    let* Z := evs_loop L (length L) R [] in Ok (vec1 Z).

  (* decode.go:188-212: for i := range rad; k = i *)
  Fixpoint enc_loop (rad : list V) (todo : nat) (i : Z) (r : V) (vec : list V) : outcome (list V) :=
    match todo with
    | O => Ok vec
    | S m =>
        let* p := if i <? zlen rad - 1 then zat rad (i + 1) else Ok one in
        let* v := a_div ops r p in
        let* v := if i <? zlen rad - 1 then a_floor ops v else Ok v in
        let* vec := store vec i v in
        let* u := a_mul ops v p in
        let* r := a_sub ops r u in
        enc_loop rad m (i + 1) r vec
    end.
  (* decode.go:186-227 enc *)
  Definition enc (rad : list V) (r : V) (vec : list V) : outcome (list V) :=
    let* vec := enc_loop rad (length rad) 0 r vec in
    let* rad0 := zat rad 0 in
    let* zerold := a_zerop ops rad0 in
    if zerold : bool then Ok vec
    else let* v0 := zat vec 0 in let* v := a_mod ops rad0 v0 in store vec 0 v.
  (* decode.go:236-238 *)
  Fixpoint put (vec : list V) (i n off : Z) (res : list V) : outcome (list V) :=
    match vec with
    | [] => Ok res
    | v :: vec' => let* res := store res (i * n + off) v in put vec' (i + 1) n off res
    end.
  (* decode.go:230-240 apply; the state is vec and res *)
  Definition apply (rad : list V) (r : V) (n off : Z) (st : list V * list V) : outcome (list V * list V) :=
    let '(vec, res) := st in
    let* vec := enc rad r vec in
    let* res := put vec 0 n off res in
    Ok (vec, res).
  (* decode.go:245-254 powerradix, i = len(rad)-2 .. 1, todo = i.  Its error is
     ignored (line 283): the values computed so far stay. *)
  Fixpoint powerradix (todo : nat) (rad : list V) : outcome (list V) :=
    match todo with
    | O => Ok rad
    | S m =>
        let i := Z.of_nat todo in
        let* x := zat rad i in
        let* y := zat rad (i + 1) in
        match a_mul ops x y with
        | Ok v => let* rad := store rad i v in powerradix m rad
        | Err => Ok rad
        | Panic => Panic
        end
    end.
  (* decode.go:277-297: the applications of one radix vector to the values rs, off increasing *)
  Fixpoint apply_all (rad : list V) (rs : list V) (n off : Z) (st : list V * list V) : outcome (list V * list V) :=
    match rs with
    | [] => Ok st
    | r :: rs' => let* st := apply rad r n off st in apply_all rad rs' n (off + 1) st
    end.
  Fixpoint enc_cols (al : arr V) (nrad NL : Z) (todo : nat) (i : Z) (rs : list V) (n off : Z) (st : list V * list V)
    : outcome (list V * list V) :=
    match todo with
    | O => Ok st
    | S m =>
        let* rad := mapM (fun k => At al (k * NL + i)) (zseq nrad) in
        let* rad := powerradix (length rad - 2) rad in
        let* st := apply_all rad rs n off st in
        enc_cols al nrad NL m (i + 1) rs n (off + zlen rs) st
    end.
  (* decode.go:163-300 encodeArray.  The values of R are read one by one (290:
     ar.At(k)), which cannot fail for a well-formed array. *)
  Definition encodeArray (nil : V) (al : arr V) (R : val V) : outcome (arr V) :=
    let ls := dims al in
    let rs := shapeOf R in
    let shape := ls ++ rs in
    let NL := if 1 <? zlen ls then Prod (skipn 1 ls) else 1 in
    let NN := if 1 <? zlen shape then Prod (skipn 1 shape) else 1 in
    if Prod shape <? 0 then Panic else
    let* nrad := zat shape 0 in
    if nrad <? 0 then Panic else
    let* rvals := match R with
                  | Scal r => Ok [r]
                  | _ => if sizeOf R <? 0 then Ok [] else mapM (At (asArr R)) (zseq (sizeOf R))
                  end in
    let* st := enc_cols al nrad NL (Z.to_nat NL) 0 rvals NN 0 (repeat nil (Z.to_nat nrad), repeat nil (Z.to_nat (Prod shape))) in
    Ok (mkArr shape (snd st)).

  (* decode.go:90-122 encode *)
  Definition encode (nil : V) (L R : val V) : outcome (val V) :=
    match L, R with
    | Emp, _ | _, Emp =>
        let sh v := match v with Emp => [0] | Scal _ => [] | Arr a => dims a end in
        rho2 (a_int ops 0) (sh L ++ sh R) (Arr (mkArr [1] [a_int ops 0]))
    | Scal l, Scal r => omap Scal (a_mod ops l r)
    | Scal l, Arr r => let* vs := mapM (a_mod ops l) (elems r) in Ok (Arr (mkArr (dims r) vs))  (* array2: C45_scalar_left *)
    | Arr l, Scal r => if zlen (dims l) =? 1 then omap Arr (encodeVecScalar (elems l) r) else omap Arr (encodeArray nil l R)
    | Arr l, _ => omap Arr (encodeArray nil l R)
    end.
End DECODE.
