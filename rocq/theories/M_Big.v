(* M_Big.v -- numbers behind pointers: package big (big/int.go, rat.go,
   float.go, complex.go, register.go) and the scalar dispatch that calls their
   methods (primitives/elementary.go:115-196, tower.go:66-113).

   big.Int, big.Rat and big.Float are mutable objects; an APL number holds a
   pointer (two for a complex number) and its Copy is the only thing that
   separates two numbers.  A heap is a list of cells, a pointer an index.

   Simplifications.
   - big.Float: a precision and a value, which is a rational or an infinity.
     The sign of zero, the rounding mode (always to nearest even) and the
     accuracy field are not modelled.  [rnd p q] is the rounding of the exact
     rational q to p bits and is a parameter, as are [sqt] (the rounded root),
     [f64] (the conversion to float64 and back) and the functions exp, log and
     pow of package bigfloat (bigfloat/*.go), which write only to objects they
     allocate (read: every receiver there is a local of the function).
   - Num() and Denom() of a big.Rat return pointers into it; they are only
     read from, and are modelled as reads.
   - Trigonometric functions, binomial, residue, minimum, maximum and lcm, which are
     composed of the methods below, are not included.  *)
From Coq Require Import String QArith Qabs Qround.
From Verif Require Import Base M_Array S_Array P_Array Eff M_Number.
Open Scope Z_scope.

Inductive fl := Fin (q : Q) | Inf (neg : bool).
Record flt := mkF { prec : Z; fv : fl }.
Inductive cell := CInt (z : Z) | CRat (q : Q) | CFlt (f : flt).
Definition heap : Type := list cell.

(* bool.go, int.go, big/*.go; VX: the numbers.Inf and numbers.NaN of package
   numbers, which are no members of these towers *)
Inductive bval := VB (b : bool) | VS (n : Z) | VI (p : Z) | VR (p : Z) | VF (p : Z) | VC (re im : Z) | VX (s : string).

(* new(big.Int), new(big.Rat), new(big.Float) *)
Definition new (c : cell) : eff heap Z := fun h => (Ok (zlen h), h ++ [c]).
Definition set (p : Z) (c : cell) : eff heap unit :=
  fun h => match znth h p with Some _ => (Ok tt, zupd h p c) | None => (Panic, h) end.
Definition geti (p : Z) : eff heap Z := fun h => (match znth h p with Some (CInt z) => Ok z | _ => Panic end, h).
Definition getr (p : Z) : eff heap Q := fun h => (match znth h p with Some (CRat q) => Ok q | _ => Panic end, h).
Definition getf (p : Z) : eff heap flt := fun h => (match znth h p with Some (CFlt f) => Ok f | _ => Panic end, h).

(* ---------------- big.Int: z.Op(x, y) stores the result in z ---------------- *)
Definition i_op (f : Z -> Z -> Z) (z x y : Z) : eff heap unit :=
  let! a := geti x in let! b := geti y in set z (CInt (f a b)).
Definition newI : eff heap Z := new (CInt 0).
(* ---------------- big.Rat: always in lowest terms ---------------- *)
Definition r_op (f : Q -> Q -> Q) (z x y : Z) : eff heap unit :=
  let! a := getr x in let! b := getr y in set z (CRat (Qred (f a b))).
Definition newR : eff heap Z := new (CRat 0).
Definition rneg (z x : Z) : eff heap unit := let! a := getr x in set z (CRat (Qred (- a))).
(* Inv panics for zero *)
Definition rinv (z x : Z) : eff heap unit :=
  let! a := getr x in if Qeq_bool a 0 then epanic else set z (CRat (Qred (/ a))).
Definition iszero (q : Q) : bool := Qnum q =? 0.
Definition qsign (q : Q) : Z := Z.sgn (Qnum q).

Inductive tower_kind := Exact | Precise (p : Z).
(* the functions of elementary.go:20-30 and operators of one argument *)
Inductive op1 := Conj | Neg | Sgn | Rec | Exp | Log | Abs | Floor | Ceil | Fact.
Inductive op2 := Add | Sub | Mul | Div | Pow | LogB | GCD | LESS | EQ.

Section BIG.
  Context (rnd : Z -> Q -> fl) (sqt : Z -> Q -> fl) (f64 : fl -> fl).
  Context (fexp flog : flt -> flt) (fpow : flt -> flt -> flt).

  (* ---------------- big.Float ---------------- *)
  Definition fsign (x : fl) : Z := match x with Fin q => qsign q | Inf n => if n then -1 else 1 end.
  (* rounding to precision p; an exact zero stays zero for precision 0 *)
  Definition fround (p : Z) (x : fl) : fl := match x with Fin q => rnd p q | Inf n => Inf n end.
  Definition fl_neg (x : fl) : fl := match x with Fin q => Fin (- q) | Inf n => Inf (negb n) end.
  (* exact sum, product and quotient; Panic is ErrNaN *)
  Definition fl_add (x y : fl) : outcome fl :=
    match x, y with
    | Fin a, Fin b => Ok (Fin (a + b))
    | Inf a, Inf b => if Bool.eqb a b then Ok (Inf a) else Panic
    | Inf a, _ => Ok (Inf a)
    | _, Inf b => Ok (Inf b)
    end.
  Definition fl_sub (x y : fl) : outcome fl := fl_add x (fl_neg y).
  Definition fl_mul (x y : fl) : outcome fl :=
    match x, y with
    | Fin a, Fin b => Ok (Fin (a * b))
    | _, _ => if (fsign x =? 0) || (fsign y =? 0) then Panic else Ok (Inf (fsign x * fsign y <? 0))
    end.
  Definition fl_quo (x y : fl) : outcome fl :=
    match x, y with
    | Fin a, Fin b => if iszero b then if iszero a then Panic else Ok (Inf (qsign a <? 0)) else Ok (Fin (a / b))
    | Inf _, Inf _ => Panic
    | Inf a, Fin b => Ok (Inf (if qsign b <? 0 then negb a else a))
    | Fin _, Inf _ => Ok (Fin 0)
    end.
  (* z.Add(x, y) ...: the precision of the result is that of z; if that is 0 it
     becomes the larger one of x and y.  The value of z is overwritten. *)
  Definition f_op (f : fl -> fl -> outcome fl) (z x y : Z) : eff heap unit :=
    let! c := getf z in let! a := getf x in let! b := getf y in
    let p := if prec c =? 0 then Z.max (prec a) (prec b) else prec c in
    let! v := elift (f (fv a) (fv b)) in
    set z (CFlt (mkF p (fround p v))).
  (* z.Neg(x), which is z.Set(x) with the sign changed *)
  Definition f_neg (z x : Z) : eff heap unit :=
    let! c := getf z in let! a := getf x in
    let p := if prec c =? 0 then prec a else prec c in
    set z (CFlt (mkF p (fl_neg (if p <? prec a then fround p (fv a) else fv a)))).
  Definition f_setint (z n : Z) : eff heap unit :=
    let! c := getf z in
    let p := if prec c =? 0 then 64 else prec c in
    set z (CFlt (mkF p (fround p (Fin (inject_Z n))))).
  (* z.SetFloat64(x); NaN does not occur *)
  Definition f_setf64 (z : Z) (x : fl) : eff heap unit :=
    let! c := getf z in
    let p := if prec c =? 0 then 53 else prec c in
    set z (CFlt (mkF p (fround p x))).
  Definition f_sqrt (z x : Z) : eff heap unit :=
    let! c := getf z in let! a := getf x in
    let p := if prec c =? 0 then prec a else prec c in
    match fv a with
    | Inf true => epanic
    | Inf false => set z (CFlt (mkF p (Inf false)))
    | Fin q => if qsign q <? 0 then epanic else set z (CFlt (mkF p (if iszero q then Fin 0 else sqt p q)))
    end.
  Definition f_cmp (x y : fl) : comparison :=
    match x, y with
    | Fin a, Fin b => Qcompare a b
    | Inf a, Inf b => if Bool.eqb a b then Eq else if a then Lt else Gt
    | Inf a, _ => if a then Lt else Gt
    | _, Inf b => if b then Gt else Lt
    end.
  Definition newF : eff heap Z := new (CFlt (mkF 0 (Fin 0))).
  (* new(big.Float).Copy(x); float.go:66-69 cpy *)
  Definition fcopy (x : Z) : eff heap Z := let! a := getf x in new (CFlt a).
  Definition is_inf (x : fl) : bool := match x with Inf _ => true | _ => false end.
  Definition fl_floor (x : fl) : fl := match x with Fin q => Fin (inject_Z (Qfloor q)) | i => i end.
  Definition fl_ceil (x : fl) : fl := match x with Fin q => Fin (inject_Z (Qceiling q)) | i => i end.

  (* ---------------- big/int.go ---------------- *)
  Definition some (v : bval) : eff heap (option bval) := eret (Some v).
  Definition no : eff heap (option bval) := eret None.
  (* int.go:46-55 *)
  Definition i_toindex (z : Z) : option Z := if (minint <=? z) && (z <=? maxint) then Some z else None.
  (* int.go:73-129 *)
  Definition Int_bin (f : Z -> Z -> Z) (i r : Z) : eff heap (option bval) :=
    let! z := newI in let! _ := i_op f z i r in some (VI z).
  Definition Int_Neg (i : Z) : eff heap (option bval) :=
    let! z := newI in let! a := geti i in let! _ := set z (CInt (- a)) in some (VI z).
  Definition Int_Sgn (i : Z) : eff heap (option bval) :=
    let! a := geti i in let! z := new (CInt (Z.sgn a)) in some (VI z).
  (* int.go:100-111: the product is compared with i, not with 1 *)
  Definition Int_Div (i : Z) : eff heap (option bval) :=
    let! a := geti i in
    if a =? 0 then some (VX "inf") else
    let! b := new (CInt 1) in
    let! _ := i_op euclid_quot b b i in
    let! m := newI in
    let! _ := i_op Z.mul m b i in
    let! mv := geti m in
    if mv =? a then some (VI b) else no.
  Definition Int_Div2 (i r : Z) : eff heap (option bval) :=
    let! x := geti i in let! y := geti r in
    if (x =? 0) && (y =? 0) then some (VX "NaN") else
    if x =? 0 then (let! z := new (CInt 0) in some (VI z)) else
    if y =? 0 then some (VX "inf") else
    let! b := newI in
    let! _ := i_op euclid_quot b i r in
    let! m := newI in
    let! _ := i_op Z.mul m b r in
    let! mv := geti m in
    if mv =? x then some (VI b) else no.
  (* int.go:131-148 *)
  Definition Int_Pow (i : Z) : eff heap (option bval) :=
    let! a := geti i in if a =? 0 then (let! z := new (CInt 1) in some (VI z)) else no.
  Definition Int_Pow2 (i r : Z) : eff heap (option bval) :=
    let! y := geti r in
    if y =? 0 then (let! z := new (CInt 1) in some (VI z)) else
    if y <? 0 then no else
    let! z := newI in let! _ := i_op Z.pow z i r in some (VI z).
  (* int.go:150-155 *)
  Definition Int_Abs (i : Z) : eff heap (option bval) :=
    let! a := geti i in if a <? 0 then Int_Neg i else some (VI i).
  (* int.go:164-182: n.Mul(n, t) for t = 1..m *)
  Fixpoint gamma_loop (k : nat) (t n : Z) (from : Z) : eff heap unit :=
    match k with
    | O => eret tt
    | S k' => let! _ := set t (CInt from) in let! _ := i_op Z.mul n n t in gamma_loop k' t n (from + 1)
    end.
  Definition Int_Gamma (i : Z) : eff heap (option bval) :=
    let! a := geti i in
    match i_toindex a with
    | None => no
    | Some m =>
        if m =? 0 then some (VS 1) else
        if (m <? 0) || (300 <? m) then no else
        let! n := new (CInt 1) in let! t := newI in
        let! _ := gamma_loop (Z.to_nat m) t n 1 in some (VI n)
    end.
  (* int.go:184-186 *)
  Definition Int_Gcd (i r : Z) : eff heap (option bval) :=
    let! z := new (CInt 0) in let! _ := i_op Z.gcd z i r in some (VI z).

  (* ---------------- big/rat.go ---------------- *)
  (* rat.go:46-52 *)
  Definition r_toindex (q : Q) : option Z := let r := Qred q in if Pos.eqb (Qden r) 1 then i_toindex (Qnum r) else None.
  Definition Rat_bin (f : Q -> Q -> Q) (l r : Z) : eff heap (option bval) :=
    let! z := newR in let! _ := r_op f z l r in some (VR z).
  Definition Rat_Neg (l : Z) : eff heap (option bval) :=
    let! z := newR in let! _ := rneg z l in some (VR z).
  Definition Rat_Sgn (l : Z) : eff heap (option bval) :=
    let! a := getr l in let! z := new (CInt (qsign a)) in some (VI z).
  (* rat.go:98-128 *)
  Definition Rat_Div (r : Z) : eff heap (option bval) :=
    let! a := getr r in if iszero a then some (VX "inf") else
    let! z := newR in let! _ := rinv z r in some (VR z).
  Definition Rat_Div2 (l r : Z) : eff heap (option bval) :=
    let! x := getr l in let! y := getr r in
    if iszero x && iszero y then some (VX "NaN") else
    if iszero x then (let! z := new (CInt 0) in some (VI z)) else
    if iszero y then some (VX "inf") else
    let! z := newR in let! _ := r_op Qdiv z l r in some (VR z).
  Definition Rat_Pow (r : Z) : eff heap (option bval) :=
    let! a := getr r in if iszero a then (let! z := new (CInt 1) in some (VI z)) else no.
  (* rat.go:136-167.  r.Neg(r) at line 143 writes to the right argument. *)
  Definition Rat_Pow2 (l r : Z) : eff heap (option bval) :=
    let! c := getr r in
    if iszero c then (let! z := new (CInt 1) in some (VI z)) else
    let! neg := (if qsign c <? 0 then (let! _ := rneg r r in eret true) else eret false) in
    let! x := getr l in
    if negb neg && iszero x then (let! z := new (CInt 0) in some (VI z)) else
    let! c' := getr r in
    if negb (Pos.eqb (Qden (Qred c')) 1) then no else
    let e := Qnum (Qred c') in
    let! x := getr l in
    let! ae := newI in let! be := newI in
    let! _ := set ae (CInt (Qnum (Qred x) ^ e)) in
    let! _ := set be (CInt (Zpos (Qden (Qred x)) ^ e)) in
    let! z := newR in
    let! a := geti ae in let! b := geti be in
    let! _ := set z (CRat (Qred (Qmake a (Z.to_pos b)))) in
    if neg then (let! _ := rinv z z in some (VR z)) else some (VR z).
  Definition Rat_Abs (r : Z) : eff heap (option bval) :=
    let! a := getr r in if qsign a <? 0 then Rat_Neg r else some (VR r).
  (* rat.go:178-185: through float64; SetFloat64 of an infinity returns a nil
     pointer, modelled by the pointer -1 *)
  Definition Rat_round (f : fl -> fl) (r : Z) : eff heap (option bval) :=
    let! a := getr r in
    match f (f64 (Fin a)) with
    | Fin q => let! z := newR in let! _ := set z (CRat (Qred q)) in some (VR z)
    | Inf _ => let! z := newR in some (VR (-1))
    end.
  (* rat.go:187-199 *)
  Definition Rat_Gcd (l r : Z) : eff heap (option bval) :=
    let! x := getr l in let! y := getr r in
    let! ad := new (CInt 0) in let! _ := set ad (CInt (Qnum (Qred x) * Zpos (Qden (Qred y)))) in
    let! cb := new (CInt 0) in let! _ := set cb (CInt (Qnum (Qred y) * Zpos (Qden (Qred x)))) in
    let! gcd := new (CInt 0) in let! _ := i_op Z.gcd gcd ad cb in
    let! bd := new (CInt 0) in let! _ := set bd (CInt (Zpos (Qden (Qred x)) * Zpos (Qden (Qred y)))) in
    let! rat := new (CRat 1) in
    let! a := geti gcd in let! b := geti bd in
    let! _ := set rat (CRat (Qred (Qmake a (Z.to_pos b)))) in some (VR rat).

  (* ---------------- big/float.go ---------------- *)
  (* float.go:83-108: z := f.cpy(); z.Op(z, r) *)
  Definition Float_bin (op : fl -> fl -> outcome fl) (f r : Z) : eff heap (option bval) :=
    let! z := fcopy f in let! _ := f_op op z z r in some (VF z).
  Definition Float_Neg (f : Z) : eff heap (option bval) :=
    let! z := fcopy f in let! _ := f_neg z f in some (VF z).
  Definition Float_Sgn (f : Z) : eff heap (option bval) := let! a := getf f in some (VS (fsign (fv a))).
  (* float.go:113-132 *)
  Definition Float_Div2 (f r : Z) : eff heap (option bval) :=
    let! a := getf f in let! b := getf r in
    if is_inf (fv a) then some (VX "inf") else
    if is_inf (fv b) then some (VX "NaN") else
    let lz := fsign (fv a) =? 0 in let rz := fsign (fv b) =? 0 in
    if lz && rz then some (VX "NaN") else
    if lz then (let! z := fcopy f in let! _ := f_setint z 0 in some (VF z)) else
    if rz then some (VX "inf") else
    let! z := fcopy f in let! _ := f_op fl_quo z f r in some (VF z).
  (* float.go:110-112: the dividend is big.NewFloat(1), of precision 53 *)
  Definition Float_Div (f : Z) : eff heap (option bval) :=
    let! one := new (CFlt (mkF 53 (Fin 1))) in Float_Div2 one f.
  (* float.go:134-149; the test at line 142 compares f with itself *)
  Definition Float_Pow (f : Z) : eff heap (option bval) :=
    let! a := getf f in let! z := new (CFlt (fexp a)) in
    if is_inf (fv (fexp a)) then some (VX "inf") else some (VF z).
  Definition Float_Pow2 (f r : Z) : eff heap (option bval) :=
    let! a := getf f in
    if (match f_cmp (fv a) (fv a) with Lt => true | _ => false end) then no else
    let! b := getf r in
    (* bigfloat/pow.go:9-11 *)
    if fsign (fv a) <? 0 then epanic else
    let! z := new (CFlt (fpow a b)) in
    if is_inf (fv (fpow a b)) then some (VX "inf") else some (VF z).
  (* float.go:151-168 *)
  Definition Float_Log (f : Z) : eff heap (option bval) :=
    let! a := getf f in if fsign (fv a) <? 0 then no else
    let! z := new (CFlt (flog a)) in some (VF z).
  Definition Float_Log2 (f r : Z) : eff heap (option bval) :=
    let! a := getf f in if fsign (fv a) <? 0 then no else
    let! b := getf r in if fsign (fv b) <? 0 then no else
    let! ll := new (CFlt (flog a)) in let! lr := new (CFlt (flog b)) in
    let! _ := f_op fl_quo lr lr ll in some (VF lr).
  Definition Float_Abs (f : Z) : eff heap (option bval) :=
    let! a := getf f in if fsign (fv a) <? 0 then Float_Neg f else some (VF f).
  (* float.go:177-184 *)
  Definition Float_round (g : fl -> fl) (f : Z) : eff heap (option bval) :=
    let! a := getf f in let! z := fcopy f in let! _ := f_setf64 z (g (f64 (fv a))) in some (VF z).

  (* ---------------- big/complex.go ---------------- *)
  Definition cre (v : bval) : Z := match v with VC a _ => a | _ => -1 end.
  (* complex.go:96-99 cpy *)
  Definition ccopy (re im : Z) : eff heap (Z * Z) :=
    let! a := fcopy re in let! b := fcopy im in eret (a, b).
  (* complex.go:106-133 *)
  Definition Complex_Conj (re im : Z) : eff heap (option bval) :=
    let! (a, b) := ccopy re im in let! _ := f_neg b b in some (VC a b).
  Definition Complex_bin (op : fl -> fl -> outcome fl) (re im rre rim : Z) : eff heap (option bval) :=
    let! (a, b) := ccopy re im in
    let! _ := f_op op a a rre in let! _ := f_op op b b rim in some (VC a b).
  Definition Complex_Neg (re im : Z) : eff heap (option bval) :=
    let! (a, b) := ccopy re im in let! _ := f_neg a a in let! _ := f_neg b b in some (VC a b).
  Definition negate_if_negative (x : Z) : eff heap unit :=
    let! a := getf x in if fsign (fv a) <? 0 then f_neg x x else eret tt.
  (* complex.go:242-265: every operation writes to c.re or c.im *)
  Definition cabs (re im : Z) : eff heap Z :=
    let! _ := negate_if_negative re in
    let! _ := negate_if_negative im in
    let! a := getf re in let! b := getf im in
    let '(x, y) := match f_cmp (fv b) (fv a) with Gt => (im, re) | _ => (re, im) end in
    let! xv := getf x in
    if fsign (fv xv) =? 0 then eret y else
    let! _ := f_op fl_quo y y x in
    let! _ := f_op fl_mul y y y in
    let! one := fcopy y in
    let! _ := f_setint one 1 in
    let! _ := f_op fl_add y y one in
    let! _ := f_sqrt y y in
    let! _ := f_op fl_mul x x y in
    eret x.
  (* complex.go:135-142: abs is called on c, not on the copy *)
  Definition Complex_Sgn (re im : Z) : eff heap (option bval) :=
    let! (a, b) := ccopy re im in
    let! r := cabs re im in
    let! rv := getf r in
    if fsign (fv rv) =? 0 then (let! _ := f_setint a 0 in let! _ := f_setint b 0 in some (VC a b)) else
    let! _ := f_op fl_quo a a r in let! _ := f_op fl_quo b b r in some (VC a b).
  (* complex.go:143-160 *)
  Definition Complex_Mul2 (re im rre rim : Z) : eff heap (option bval) :=
    let! (a, b) := ccopy re im in let! (c, d) := ccopy rre rim in
    let! ac := fcopy a in let! bd := fcopy b in let! ad := fcopy a in let! bc := fcopy b in
    let! _ := f_op fl_mul ac a c in
    let! _ := f_op fl_mul bd b d in
    let! _ := f_op fl_mul ad a d in
    let! _ := f_op fl_mul bc b c in
    let! _ := f_op fl_sub a ac bd in
    let! _ := f_op fl_add b ad bc in
    some (VC a b).
  (* complex.go:206-232 *)
  Definition div_ (a b c d : Z) : eff heap (Z * Z) :=
    let! r := newF in let! _ := f_op fl_quo r d c in
    let! t := newF in let! _ := f_op fl_mul t d r in
    let! _ := f_op fl_add t t c in
    let! one := fcopy t in let! _ := f_setint one 1 in
    let! _ := f_op fl_quo t one t in
    let! e := newF in let! f := newF in
    let! rv := getf r in
    if negb (fsign (fv rv) =? 0) then
      let! _ := f_op fl_mul e b r in
      let! _ := f_op fl_add e e a in
      let! _ := f_op fl_mul e e t in
      let! _ := f_op fl_mul f a r in
      let! _ := f_op fl_sub f b f in
      let! _ := f_op fl_mul f f t in
      eret (e, f)
    else
      let! _ := f_op fl_quo e b c in
      let! _ := f_op fl_mul e e d in
      let! _ := f_op fl_add e e a in
      let! _ := f_op fl_mul e e t in
      let! _ := f_op fl_quo f a c in
      let! _ := f_op fl_mul f f d in
      let! _ := f_op fl_sub f b f in
      let! _ := f_op fl_mul f f t in
      eret (e, f).
  (* complex.go:168-204 *)
  Definition Complex_Div2 (re im rre rim : Z) : eff heap (option bval) :=
    let! c0 := getf rre in let! d0 := getf rim in let! a0 := getf re in let! b0 := getf im in
    if (fsign (fv c0) =? 0) && (fsign (fv d0) =? 0) then some (VX "inf") else
    if (fsign (fv a0) =? 0) && (fsign (fv b0) =? 0) then (let! (a, b) := ccopy re im in some (VC a b)) else
    let! a := fcopy re in let! b := fcopy im in let! c := fcopy rre in let! d := fcopy rim in
    let! dd := fcopy d in let! _ := negate_if_negative dd in
    let! cc := fcopy c in let! _ := negate_if_negative cc in
    let! ddv := getf dd in let! ccv := getf cc in
    match f_cmp (fv ddv) (fv ccv) with
    | Gt => let! (e, f) := div_ b a d c in let! _ := f_neg f f in some (VC e f)
    | _ => let! (e, f) := div_ a b c d in some (VC e f)
    end.
  (* complex.go:162-167 *)
  Definition Complex_Div (re im : Z) : eff heap (option bval) :=
    let! (a, b) := ccopy re im in
    let! _ := f_setint a 1 in let! _ := f_setint b 0 in Complex_Div2 a b re im.
  (* complex.go:237-240 *)
  Definition Complex_Abs (re im : Z) : eff heap (option bval) :=
    let! (a, b) := ccopy re im in let! r := cabs a b in some (VF r).
  (* complex.go:267-283 *)
  Definition Complex_Floor (re im : Z) : eff heap (option bval) :=
    let pick (o : option bval) : Z := match o with Some (VF p) => p | _ => -1 end in
    let! fa := Float_round fl_floor re in let! fb := Float_round fl_floor im in
    let! afa := Float_bin fl_sub re (pick fa) in let! bfb := Float_bin fl_sub im (pick fb) in
    let! sum := Float_bin fl_add (pick afa) (pick bfb) in
    let! one := newF in let! _ := f_setint one 1 in
    let! s := getf (pick sum) in let! o := getf one in
    match f_cmp (fv s) (fv o) with
    | Lt => some (VC (pick fa) (pick fb))
    | _ =>
        let! x := getf (pick afa) in let! y := getf (pick bfb) in
        match f_cmp (fv x) (fv y) with
        | Lt => let! _ := f_op fl_add one one (pick fb) in some (VC (pick fa) one)
        | _ => let! _ := f_op fl_add one one (pick fa) in some (VC one (pick fb))
        end
    end.
  (* complex.go:285-293 *)
  Definition Complex_Ceil (re im : Z) : eff heap (option bval) :=
    let! z := Complex_Neg re im in
    match z with
    | Some (VC a b) =>
        let! f := Complex_Floor a b in
        match f with Some (VC c d) => Complex_Neg c d | _ => no end
    | _ => no
    end.

  (* ---------------- ToIndex ---------------- *)
  (* float.go:55-65: big.NewFloat(float64(n)) is compared with f *)
  Definition f_toindex (x : fl) : option Z :=
    match x with
    | Inf _ => None
    | Fin q =>
        if Pos.eqb (Qden (Qred q)) 1 then
          let z := Qnum (Qred q) in
          let n := if z <? minint then minint else if maxint <? z then maxint else z in
          match f_cmp (f64 (Fin (inject_Z n))) x with Eq => Some n | _ => None end
        else None
    end.
  Definition toindex (v : bval) : eff heap (option Z) :=
    match v with
    | VB b => eret (Some (bool2int b))
    | VS n => eret (Some n)
    | VI p => let! a := geti p in eret (i_toindex a)
    | VR p => let! a := getr p in eret (r_toindex a)
    | VF p => let! a := getf p in eret (f_toindex (fv a))
    (* complex.go:84-89 *)
    | VC re im => let! b := getf im in if negb (fsign (fv b) =? 0) then eret None else
                  let! a := getf re in eret (f_toindex (fv a))
    | VX _ => eret None
    end.
  (* tower.go:120-126 *)
  Definition iszeroN (v : bval) : eff heap bool :=
    let! i := toindex v in eret (match i with Some 0 => true | _ => false end).

  (* ---------------- the methods by type: elementary.go:200-330 ---------------- *)
  Definition call1 (o : op1) (v : bval) : eff heap (option bval) :=
    match v with
    | VB b => match o with Abs => some v | _ => no end
    | VS n => match o with
              | Conj | Floor | Ceil => some v
              | Neg => some (VS (int_neg n))
              | Sgn => some (VS (int_sign n))
              | Rec => eret (option_map VS (int_div n))
              | Exp => if n =? 0 then some (VS 1) else no
              | Log => no
              | Abs => some (VS (int_abs n))
              | Fact => eret (option_map VS (int_gamma n))
              end
    | VI p => match o with
              | Conj | Floor | Ceil => some v
              | Neg => Int_Neg p | Sgn => Int_Sgn p | Rec => Int_Div p | Exp => Int_Pow p | Log => no
              | Abs => Int_Abs p | Fact => Int_Gamma p
              end
    | VR p => match o with
              | Conj => some v
              | Neg => Rat_Neg p | Sgn => Rat_Sgn p | Rec => Rat_Div p | Exp => Rat_Pow p | Log => no
              | Abs => Rat_Abs p | Floor => Rat_round fl_floor p | Ceil => Rat_round fl_ceil p | Fact => no
              end
    | VF p => match o with
              | Conj => some v
              | Neg => Float_Neg p | Sgn => Float_Sgn p | Rec => Float_Div p | Exp => Float_Pow p | Log => Float_Log p
              | Abs => Float_Abs p | Floor => Float_round fl_floor p | Ceil => Float_round fl_ceil p | Fact => no
              end
    | VC re im => match o with
              | Conj => Complex_Conj re im
              | Neg => Complex_Neg re im | Sgn => Complex_Sgn re im | Rec => Complex_Div re im
              | Abs => Complex_Abs re im | Floor => Complex_Floor re im | Ceil => Complex_Ceil re im
              | Exp | Log | Fact => no
              end
    | VX _ => no
    end.
  Definition fcmp2 (g : comparison -> bool) (x y : Z) : eff heap (option bval) :=
    let! a := getf x in let! b := getf y in some (VB (g (f_cmp (fv a) (fv b)))).
  Definition is_lt (c : comparison) : bool := match c with Lt => true | _ => false end.
  Definition is_eq (c : comparison) : bool := match c with Eq => true | _ => false end.
  (* a method of the left argument applied to a right argument of the same
     type; R.(Int) panics for another type *)
  Definition call2 (o : op2) (l r : bval) : eff heap (option bval) :=
    let gcd0 (m : eff heap (option bval)) : eff heap (option bval) :=
      (* elementary.go:493-505 *)
      let! lz := iszeroN l in if lz then some r else
      let! rz := iszeroN r in if rz then some l else m in
    match l, r with
    | VB a, VB b => match o with
              | LESS => some (VB (negb a && b)) | EQ => some (VB (Bool.eqb a b)) | GCD => gcd0 no | _ => no end
    | VS a, VS b => match o with
              | Add => some (VS (int_add2 a b)) | Sub => some (VS (int_sub2 a b)) | Mul => some (VS (int_mul2 a b))
              | Div => eret (option_map VS (int_div2 a b))
              | Pow | LogB => no
              | GCD => gcd0 (some (VS (int_gcd a b)))
              | LESS => some (VB (a <? b)) | EQ => some (VB (a =? b))
              end
    | VI p, VI q => match o with
              | Add => Int_bin Z.add p q | Sub => Int_bin Z.sub p q | Mul => Int_bin Z.mul p q
              | Div => Int_Div2 p q | Pow => Int_Pow2 p q | LogB => no | GCD => gcd0 (Int_Gcd p q)
              | LESS => let! a := geti p in let! b := geti q in some (VB (a <? b))
              | EQ => let! a := geti p in let! b := geti q in some (VB (a =? b))
              end
    | VR p, VR q => match o with
              | Add => Rat_bin Qplus p q | Sub => Rat_bin Qminus p q | Mul => Rat_bin Qmult p q
              | Div => Rat_Div2 p q | Pow => Rat_Pow2 p q | LogB => no | GCD => gcd0 (Rat_Gcd p q)
              | LESS => let! a := getr p in let! b := getr q in some (VB (is_lt (Qcompare a b)))
              | EQ => let! a := getr p in let! b := getr q in some (VB (is_eq (Qcompare a b)))
              end
    | VF p, VF q => match o with
              | Add => Float_bin fl_add p q | Sub => Float_bin fl_sub p q | Mul => Float_bin fl_mul p q
              | Div => Float_Div2 p q | Pow => Float_Pow2 p q | LogB => Float_Log2 p q | GCD => gcd0 no
              | LESS => fcmp2 is_lt p q | EQ => fcmp2 is_eq p q
              end
    | VC a b, VC c d => match o with
              | Add => Complex_bin fl_add a b c d | Sub => Complex_bin fl_sub a b c d | Mul => Complex_Mul2 a b c d
              | Div => Complex_Div2 a b c d | Pow | LogB | LESS => no | GCD => gcd0 no
              | EQ => let! x := getf a in let! y := getf c in
                      let! u := getf b in let! w := getf d in
                      some (VB (is_eq (f_cmp (fv x) (fv y)) && is_eq (f_cmp (fv u) (fv w))))
              end
    | _, _ => epanic
    end.

  (* ---------------- the towers: big/register.go:26-86 ---------------- *)
  (* Import; float64(n) rounds *)
  Definition import (tw : tower_kind) (v : bval) : eff heap bval :=
    let mk (n : Z) (x : fl) :=
      match tw with
      | Exact => let! z := new (CInt n) in eret (VI z)
      | Precise p => let! z := new (CFlt (mkF p (fround p x))) in eret (VF z)
      end in
    match v with
    | VB b => mk (bool2int b) (Fin (inject_Z (bool2int b)))
    | VS n => mk n (f64 (Fin (inject_Z n)))
    | _ => eret v
    end.
  (* tower.go:152-174 and the Class fields; None: no member of the tower *)
  Definition class_of (tw : tower_kind) (v : bval) : option Z :=
    match v, tw with
    | VB _, _ => Some (-2)
    | VS _, _ => Some (-1)
    | VI _, Exact | VF _, Precise _ => Some 0
    | VR _, Exact | VC _ _, Precise _ => Some 1
    | _, _ => None
    end.
  (* Uptype; false for the highest class *)
  Definition uptype (tw : tower_kind) (v : bval) : eff heap (option bval) :=
    match v with
    | VB b => some (VS (bool2int b))
    | VS _ => let! w := import tw v in some w
    (* int.go:57-61 intToRat *)
    | VI p => let! z := newR in let! a := geti p in let! _ := set z (CRat (Qred (inject_Z a))) in some (VR z)
    (* complex.go:91-94 floatToComplex *)
    | VF p => let! z := fcopy p in let! i := newF in some (VC z i)
    | _ => no
    end.
  Definition same_type (a b : bval) : bool :=
    match a, b with
    | VB _, VB _ | VS _, VS _ | VI _, VI _ | VR _, VR _ | VF _, VF _ | VC _ _, VC _ _ => true
    | _, _ => false
    end.
  (* tower.go:66-113 *)
  Definition SameType (tw : tower_kind) (a b : bval) : eff heap (bval * bval) :=
    if same_type a b then eret (a, b) else
    match a, b with
    | VB x, VS _ => eret (VS (bool2int x), b)
    | VS _, VB y => eret (a, VS (bool2int y))
    | _, _ =>
        let! a := import tw a in
        let! b := import tw b in
        match class_of tw a, class_of tw b with
        | Some ca, Some cb =>
            if ca <? cb then
              let! w := uptype tw a in match w with Some a' => eret (a', b) | None => efail end
            else if cb <? ca then
              let! w := uptype tw b in match w with Some b' => eret (a, b') | None => efail end
            else eret (a, b)
        | _, _ => efail
        end
    end.
  (* elementary.go:126-138, 178-192; there are at most four classes *)
  Fixpoint arith1_loop (fuel : nat) (tw : tower_kind) (o : op1) (v : bval) : eff heap bval :=
    match fuel with
    | O => efail
    | S k =>
        let! r := call1 o v in
        match r with
        | Some w => eret w
        | None => let! u := uptype tw v in
                  match u with Some v' => arith1_loop k tw o v' | None => efail end
        end
    end.
  Definition arith1 (tw : tower_kind) (o : op1) (v : bval) : eff heap bval :=
    let! r := call1 o v in
    match r with
    | Some w => eret w
    | None => match class_of tw v with Some _ => arith1_loop 4 tw o v | None => efail end
    end.
  Fixpoint arith2_loop (fuel : nat) (tw : tower_kind) (o : op2) (l r : bval) : eff heap bval :=
    match fuel with
    | O => efail
    | S k =>
        let! res := call2 o l r in
        match res with
        | Some w => eret w
        | None => let! u := uptype tw l in
                  match u with
                  | None => efail
                  | Some l' => let! w := uptype tw r in
                               match w with Some r' => arith2_loop k tw o l' r' | None => epanic end
                  end
        end
    end.
  (* elementary.go:149-196: the methods are tried on the arguments themselves
     first, and again in the loop *)
  Definition arith2 (tw : tower_kind) (o : op2) (l r : bval) : eff heap bval :=
    let! first := (if same_type l r then call2 o l r else no) in
    match first with
    | Some w => eret w
    | None =>
        let! (l, r) := SameType tw l r in
        match class_of tw l with
        | Some c => arith2_loop (Z.to_nat (2 - c)) tw o l r
        | None => efail
        end
    end.
End BIG.
