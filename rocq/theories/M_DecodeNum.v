(* M_DecodeNum.v -- the arithmetic of a number tower as used by encode and decode
   (apl/primitives/decode.go), from the model of the scalar functions (M_Number). *)
From Verif Require Import Base M_Number M_Decode.
Open Scope Z_scope.

(* decode.go:55,70,126-129,173-178.  The assertion z.(apl.Bool) of line 145 and 217
   panics for other results. *)
Definition tower_ops {P} (M : methods P) (t : tower P) : arith (sval P) := {|
  a_add := arith2 M t (add2 M);
  a_mul := arith2 M t (mul2 M);
  a_sub := arith2 M t (sub2 M);
  a_div := arith2 M t (div2 M);
  a_mod := arith2 M t (abs2 M t);
  a_floor := arith1 M t (floor M);
  a_zerop := fun x =>
    let* r := arith2 M t (compare M CEq) x (VNum (NI 0)) in
    match r with VNum (NB b) => Ok b | _ => Panic end;
  a_int := fun z => VNum (NI z)
|}.
