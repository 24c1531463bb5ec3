(* M_Complex.v -- the complex numbers of the default tower: apl/numbers/complex.go, and the circle
   functions of numbers/float.go.  A float64 is one of Coq's specification floats (one NaN). *)
From Coq Require Import ZArith List Bool String Floats.SpecFloat.
Import ListNotations.
From Verif Require Import Base M_Number.
Open Scope Z_scope.

(* complex.go:12 Complex is a complex128 *)
Record cplx := mkC { re : spec_float; im : spec_float }.
Definition f0 : spec_float := S754_zero false.
Definition f1 : spec_float := f_of_int 1.
(* == of Go on complex128 *)
Definition c_eq (z w : cplx) : bool := SFeqb (re z) (re w) && SFeqb (im z) (im w).
(* float.go:59-61 floatToComplex *)
Definition f2c (f : spec_float) : cplx := mkC f f0.

(* complex.go:133-135 Add (conjugate), 140-142 Sub (negate) *)
Definition c_conj (z : cplx) : cplx := mkC (re z) (SFopp (im z)).
Definition c_neg (z : cplx) : cplx := mkC (SFopp (re z)) (SFopp (im z)).
(* complex.go:136-138 Add2, 143-145 Sub2, 154-156 Mul2: the operators of Go on complex128; the product
   is computed by the two formulas without regard to infinities *)
Definition c_add (z w : cplx) : cplx := mkC (f_add (re z) (re w)) (f_add (im z) (im w)).
Definition c_sub (z w : cplx) : cplx := mkC (f_sub (re z) (re w)) (f_sub (im z) (im w)).
Definition c_mul (z w : cplx) : cplx :=
  mkC (f_sub (f_mul (re z) (re w)) (f_mul (im z) (im w))) (f_add (f_mul (re z) (im w)) (f_mul (im z) (re w))).
(* complex.go:147-153 Mul (direction); [hyp] is cmplx.Abs *)
Definition c_sign (hyp : cplx -> spec_float) (z : cplx) : cplx :=
  if c_eq z (mkC f0 f0) then z else let r := hyp z in mkC (f_div (re z) r) (f_div (im z) r).
(* complex.go:121-131 ToIndex *)
Definition c_idx (z : cplx) : option Z := if SFeqb (im z) f0 then f_idx (re z) else None.

(* complex.go:204-217 Floor.  None: the message "unknown case" is printed and the method fails. *)
Definition c_floor (z : cplx) : option cplx :=
  let a := re z in
  let b := im z in
  let fa := f_floor a in
  let fb := f_floor b in
  let s := f_add (f_sub a fa) (f_sub b fb) in
  if SFltb s f1 then Some (mkC fa fb)
  else if SFleb f1 s && SFleb (f_sub b fb) (f_sub a fa) then Some (mkC (f_add f1 fa) fb)
  else if SFleb f1 s && SFltb (f_sub a fa) (f_sub b fb) then Some (mkC fa (f_add f1 fb))
  else None.
(* complex.go:218-224 Ceil *)
Definition c_ceil (z : cplx) : option cplx := option_map c_neg (c_floor (c_neg z)).

(* ---- the circle functions ---- *)
(* complex.go:265-334 Trig: the cases 9 to 12, -9, -10, -11; [phase] is cmplx.Phase, the others are
   transcendental functions of the Go library, a parameter.  L is compared with the constants by ==. *)
Inductive part := PF (f : spec_float) | PC (c : cplx).
Definition is_code (L : cplx) (n : Z) : bool := c_eq L (f2c (f_of_int n)).
Definition c_i : cplx := mkC f0 f1.
Definition trig_c (hyp phase : cplx -> spec_float) (other : cplx -> cplx -> option part) (L x : cplx) : option part :=
  if is_code L (-9) then Some (PC x)
  else if is_code L 9 then Some (PF (re x))
  else if is_code L (-10) then Some (PC (c_conj x))
  else if is_code L 10 then Some (PF (hyp x))
  else if is_code L (-11) then Some (PC (c_mul x c_i))
  else if is_code L 11 then Some (PF (im x))
  else if is_code L 12 then Some (PF (phase x))
  else other L x.
(* float.go:179-243 Trig: 9 and ¯9 are the number itself, as are ¯10 and 11 (sic, line 229: "imag
   part"), 10 is the magnitude, 12 the sign (line 232: "phase"), ¯11 and ¯12 fail. *)
Definition is_codef (L : spec_float) (n : Z) : bool := SFeqb L (f_of_int n).
Definition trig_f (other : spec_float -> spec_float -> option spec_float) (L x : spec_float) : option spec_float :=
  if is_codef L (-9) || is_codef L 9 || is_codef L (-10) then Some x
  else if is_codef L 10 then Some (SFabs x)
  else if is_codef L (-11) then None
  else if is_codef L 11 then Some x
  else if is_codef L (-12) then None
  else if is_codef L 12 then Some (if SFeqb x f0 then f0 else if SFltb x f0 then f_of_int (-1) else f1)
  else other L x.
(* primitives/elementary.go:463-468 circular, on the numbers of the default tower; Int and Bool have no
   method Trig, Time has none. *)
Section Circular.
  Context {T : Type} (hyp phase : cplx -> spec_float) (otherf : spec_float -> spec_float -> option spec_float) (otherc : cplx -> cplx -> option part).
  Definition circular : @fn2 (dnum cplx T) := fun L R =>
    match L, R with
    | VNum (NT (DF l)), Some (VNum (NT (DF r))) => Ok (option_map (fun f => VNum (NT (DF f))) (trig_f otherf l r))
    | VNum (NT (DC l)), Some (VNum (NT (DC r))) =>
        Ok (option_map (fun p => match p with PF f => VNum (NT (DF f)) | PC c => VNum (NT (DC c)) end) (trig_c hyp phase otherc l r))
    | VNum (NT (DF _)), _ | VNum (NT (DC _)), _ => Panic       (* R.(Float), R.(Complex) *)
    | _, _ => Ok None
    end.
End Circular.

(* ---- the methods of Complex as a part of the tower ---- *)
(* Complex has no Less; its absolute value is a Float, which the record of M_Number has no place for, so
   it is a parameter here and no theorem about the tower speaks of it.  Division (complex128 division of
   the Go runtime, complex.go:158-171) is a parameter too. *)
Section Methods.
  Context (abs_ : cplx -> outcome (option (sval cplx))) (div_ : cplx -> cplx -> outcome (option (sval cplx))).
  Definition okC (c : cplx) : outcome (option (sval cplx)) := Ok (Some (VNum (NT c))).
  Definition cM : methods cplx := {|
    ptype := fun _ => tDC;
    pidx := c_idx;
    peq := fun z w => Ok (c_eq z w);
    pless := fun _ _ => Ok None;
    padd2 := fun z w => okC (c_add z w);
    psub2 := fun z w => okC (c_sub z w);
    pmul2 := fun z w => okC (c_mul z w);
    pdiv2 := div_;
    pgcd := fun _ _ => Ok None;
    pneg := fun z => okC (c_neg z);
    pabs := abs_;
    pfloor := fun z => Ok (option_map (fun c => VNum (NT c)) (c_floor z))
  |}.
End Methods.

(* ---- literals ---- *)
Definition text := list Z.
(* strings.Index(s, c) followed by the two parts s[:idx], s[idx+1:] *)
Fixpoint split_at (c : Z) (s : text) : option (text * text) :=
  match s with
  | [] => None
  | x :: r => if x =? c then Some ([], r) else option_map (fun p => (x :: fst p, snd p)) (split_at c r)
  end.
Definition r_a := 97. Definition r_J := 74. Definition r_j := 106. Definition r_minus := 45. Definition r_high := 175. Definition r_point := 46.
Definition replace (a b : Z) (s : text) : text := map (fun x => if x =? a then b else x) s.
(* strings.TrimSuffix(s, ".") *)
Definition trim_point (s : text) : text :=
  match rev s with x :: r => if x =? r_point then rev r else s | [] => s end.
Section Literals.
  (* strconv.ParseFloat(s, 64) and fmt's %v of a float64 *)
  Context (strconv : text -> option spec_float) (show : spec_float -> text).
  (* cmplx.Rect(f, deg/180.0*math.Pi) *)
  Context (rect : spec_float -> spec_float -> cplx).
  (* float.go:42-48 ParseFloat *)
  Definition ParseFloat (s : text) : option spec_float := strconv (trim_point (replace r_high r_minus s)).
  (* complex.go:72-118 ParseComplex *)
  Definition ParseComplex (s : text) : option cplx :=
    match split_at r_a s with
    | Some (m, d) =>
        match ParseFloat m, ParseFloat d with
        | Some f, Some g =>
            if SFeqb g f0 then Some (mkC f f0)
            else if SFeqb g (f_of_int 90) then Some (mkC f0 f)
            else if SFeqb g (f_of_int 180) then Some (mkC (SFopp f) f0)
            else if SFeqb g (f_of_int 270) then Some (mkC f0 (SFopp f))
            else Some (rect f g)
        | _, _ => None
        end
    | None =>
        match (match split_at r_J s with Some p => Some p | None => split_at r_j s end) with
        | Some (x, y) =>
            match ParseFloat x, ParseFloat y with
            | Some f, Some g => Some (mkC f g)
            | _, _ => None
            end
        | None => match ParseFloat s with Some f => Some (mkC f f0) | None => None end
        end
    end.
  (* complex.go:24-66 String, PP = ¯1 (the format is %vJ%v) and no format set for the type *)
  Definition ComplexString (z : cplx) : text := replace r_minus r_high (show (re z) ++ r_J :: show (im z)).
  (* the format %vJ%v with a leading -: - is not replaced *)
  Definition ComplexStringMinus (z : cplx) : text := show (re z) ++ r_J :: show (im z).
End Literals.
