(* M_Identity.v -- model of apl/operators/identity.go.
   A primitive is named by its symbol (apl.Primitive is a string). *)
From Verif Require Import Base.
From Coq Require Import String.
Local Open Scope string_scope.

(* The values that occur in the table: apl.Int(0), apl.Int(1) and the floats
   -math.MaxFloat64, math.MaxFloat64. *)
Inductive ident_val := IInt (n : Z) | INegMaxFloat | IMaxFloat.

Definition one_of (p : string) (l : list string) : bool := existsb (String.eqb p) l.

(* identity.go:12-28 identityItem for a primitive; nil is None.  Any other
   kind of function has no identity item. *)
Definition identityItem (p : string) : option ident_val :=
  if one_of p ["+"; "-"; "|"; "∨"; "<"; ">"; "≠"; "⊤"; "∪"; "⌽"; "⊖"] then Some (IInt 0)
  else if one_of p ["×"; "÷"; "*"; "!"; "^"; "∧"; "≤"; "="; "≥"; "/"; "⌿"; "\"; "⍀"] then Some (IInt 1)
  else if p =? "⌊" then Some INegMaxFloat
  else if p =? "⌈" then Some IMaxFloat
  else None.
