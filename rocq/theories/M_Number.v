(* M_Number.v -- model of the numeric tower and the scalar functions:
   apl/tower.go, apl/int.go, apl/bool.go, apl/numbers/{register,float}.go,
   apl/big/{register,int,rat}.go, apl/primitives/{elementary,compare,boolean}.go
   and isEqual (iota.go:228-252).

   Go's int is 64 bit (amd64).  A Number is a Bool, an Int or a number of the
   current tower (type P).  A Value that is not a Number (a string, the
   exceptions ∞, ¯∞, NaN) is [VOth t s] with type t and content s. *)
From Coq Require Import String.
From Coq Require Import QArith Qround Qabs.
From Coq Require Import Floats.SpecFloat.
From Verif Require Import Base.
Open Scope Z_scope.

(* ---------------- 64 bit integers ---------------- *)
Definition minint : Z := - 2 ^ 63.
Definition maxint : Z := 2 ^ 63 - 1.
Definition wrap (z : Z) : Z := (z + 2 ^ 63) mod 2 ^ 64 - 2 ^ 63.

(* int.go:66-68, 73-75, 86-88 *)
Definition int_add2 (i j : Z) : Z := wrap (i + j).
Definition int_sub2 (i j : Z) : Z := wrap (i - j).
Definition int_mul2 (i j : Z) : Z := wrap (i * j).
(* int.go:70-72 *)
Definition int_neg (i : Z) : Z := wrap (- i).
(* int.go:77-84 *)
Definition int_sign (i : Z) : Z := if 0 <? i then 1 else if i <? 0 then -1 else 0.
(* int.go:90-97 *)
Definition int_div (i : Z) : option Z := if i =? 1 then Some 1 else if i =? -1 then Some (-1) else None.
(* int.go:98-108; Go's / truncates, and minint / -1 is minint *)
Definition int_div2 (a n : Z) : option Z :=
  if n =? 0 then None else
  let r := wrap (Z.quot a n) in
  if wrap (r * n) =? a then Some r else None.
(* int.go:127-132 *)
Definition int_abs (i : Z) : Z := if i <? 0 then wrap (- i) else i.
(* int.go:141-153 *)
Definition int_gamma (i : Z) : option Z :=
  if (i <? 0) || (20 <? i) then None else
  if i =? 0 then Some 1 else
  Some (fold_left (fun n k => wrap (n * (k + 1))) (zseq i) 1).
(* int.go:155-160 m1exp; Go's % has the sign of the dividend *)
Definition m1exp (n : Z) : Z := if Z.rem n 2 =? 0 then 1 else -1.
(* int.go:163-177: the case 0 <= L, 0 <= R, 0 <= R-L.  The product of the two
   factorials cannot be 0 here; Go would panic on a division by 0. *)
Definition gamma2_pos (L R : Z) : option Z :=
  match int_gamma L with
  | None => None
  | Some lg =>
    match int_gamma R with
    | None => None
    | Some rg =>
      match int_gamma (wrap (R - L)) with
      | None => None
      | Some rlg => Some (wrap (Z.quot rg (wrap (lg * rlg))))
      end
    end
  end.
(* int.go:154-203 Gamma2.  The recursion is never deeper than one level
   (P_Number.gamma2_fuel); fuel is the allowed depth. *)
Fixpoint int_gamma2 (fuel : nat) (L R : Z) : option Z :=
  let d := wrap (R - L) in
  if (0 <=? L) && (0 <=? R) && (0 <=? d) then gamma2_pos L R
  else if (0 <=? L) && (0 <=? R) && (d <? 0) then Some 0
  else if (0 <=? L) && (R <? 0) && (d <? 0) then
    match fuel with
    | O => None
    | S f => match int_gamma2 f L (wrap (L - wrap (1 + R))) with
             | None => None
             | Some v => Some (wrap (m1exp L * v))
             end
    end
  else if (L <? 0) && (0 <=? R) && (0 <=? d) then Some 0
  else if (L <? 0) && (R <? 0) && (0 <=? d) then
    let al1 := wrap (1 + L) in
    let al1 := if al1 <? 0 then wrap (- al1) else al1 in
    match fuel with
    | O => None
    | S f => match int_gamma2 f (wrap (- (wrap (R + 1)))) al1 with
             | None => None
             | Some v => Some (wrap (m1exp d * v))
             end
    end
  else if (L <? 0) && (R <? 0) && (d <? 0) then Some 0
  else None.
(* int.go:205-209 Gcd through math/big (Go 1.14 or later: the result is never
   negative for any signs) *)
Definition int_gcd (L R : Z) : Z := wrap (Z.gcd L R).

(* ---------------- numbers and values ---------------- *)
Inductive num (P : Type) := NB (b : bool) | NI (n : Z) | NT (p : P).
Arguments NB {P}. Arguments NI {P}. Arguments NT {P}.
Inductive sval (P : Type) := VNum (n : num P) | VOth (t : Z) (s : string).
Arguments VNum {P}. Arguments VOth {P}.

(* types of values that are not numbers: String, numbers.exception *)
Definition strT : Z := 101.
Definition excT : Z := 100.
(* reflect.Type of a number *)
Inductive ntype := TB | TI | TT (t : Z).
Definition ntype_eqb (a b : ntype) : bool :=
  match a, b with TB, TB => true | TI, TI => true | TT s, TT t => s =? t | _, _ => false end.

(* the methods of the numbers of a tower.  A method that the type does not
   have, or that returns false, gives None; a failing type assertion panics. *)
Record methods (P : Type) := mkMeth {
  ptype : P -> Z;
  pidx : P -> option Z;                              (* ToIndex *)
  peq : P -> P -> outcome bool;                      (* Equals, or == *)
  pless : P -> P -> outcome (option bool);           (* Less *)
  padd2 : P -> P -> outcome (option (sval P));
  psub2 : P -> P -> outcome (option (sval P));
  pmul2 : P -> P -> outcome (option (sval P));
  pdiv2 : P -> P -> outcome (option (sval P));
  pgcd : P -> P -> outcome (option (sval P));
  pneg : P -> outcome (option (sval P));
  pabs : P -> outcome (option (sval P));
  pfloor : P -> outcome (option (sval P))
}.
Arguments ptype {P}. Arguments pidx {P}. Arguments peq {P}. Arguments pless {P}.
Arguments padd2 {P}. Arguments psub2 {P}. Arguments pmul2 {P}. Arguments pdiv2 {P}. Arguments pgcd {P}.
Arguments pneg {P}. Arguments pabs {P}. Arguments pfloor {P}. Arguments mkMeth {P}.

(* tower.go:178-182 Numeric; Uptype returns (Number or nil, ok) *)
Record numeric (P : Type) := mkNumeric { Class : Z; Uptype : num P -> option (num P) * bool }.
Arguments Class {P}. Arguments Uptype {P}. Arguments mkNumeric {P}.
(* tower.go:8-13 Tower: the map Numbers as an association list in the order in
   which Go happens to iterate, the index idx, Import *)
Record tower (P : Type) := mkTower {
  Numbers : list (Z * numeric P);
  idx : list (numeric P);
  Import : num P -> num P
}.
Arguments Numbers {P}. Arguments idx {P}. Arguments Import {P}. Arguments mkTower {P}.

(* tower.go:17-34 SetTower: idx[i] is the last entry (in iteration order) of
   class i; a missing class is an error *)
Definition last_of_class {P} (l : list (Z * numeric P)) (i : Z) : option (numeric P) :=
  fold_left (fun acc e => if Class (snd e) =? i then Some (snd e) else acc) l None.
Definition SetTower {P} (numbers : list (Z * numeric P)) (import : num P -> num P) : outcome (tower P) :=
  let* ix := mapM (fun i => match last_of_class numbers i with Some n => Ok n | None => Err end) (zseq (zlen numbers)) in
  Ok (mkTower numbers ix import).

Fixpoint assoc {X} (l : list (Z * X)) (t : Z) : option X :=
  match l with [] => None | (k, v) :: r => if k =? t then Some v else assoc r t end.

Section TOWER.
  Context {P : Type} (M : methods P) (t : tower P).

  Definition typeOf (n : num P) : ntype := match n with NB _ => TB | NI _ => TI | NT p => TT (ptype M p) end.
  (* a.Tower.Numbers[reflect.TypeOf(n)] *)
  Definition lookup (n : num P) : option (numeric P) :=
    match n with NT p => assoc (Numbers t) (ptype M p) | _ => None end.
  Definition bool2int (b : bool) : Z := if b then 1 else 0.

  (* tower.go:103-110 (and 111-118): k steps of Uptype, following idx *)
  Fixpoint uptypes (k : nat) (i : Z) (na : numeric P) (a : num P) : outcome (num P * numeric P) :=
    match k with
    | O => Ok (a, na)
    | S k' =>
        match Uptype na a with
        | (Some a', true) => let* na' := zat (idx t) (i + 1) in uptypes k' (i + 1) na' a'
        | (None, true) => Panic   (* a nil Number with ok: no tower does this *)
        | (_, false) => Err
        end
    end.
  (* tower.go:64-120 SameType *)
  Definition SameType (a b : num P) : outcome (num P * num P) :=
    if ntype_eqb (typeOf a) (typeOf b) then Ok (a, b) else
    match a, b with
    | NB ab, NI _ => Ok (NI (bool2int ab), b)
    | NI _, NB bb => Ok (a, NI (bool2int bb))
    | _, _ =>
      let a := match a with NT _ => a | _ => Import t a end in
      let b := match b with NT _ => b | _ => Import t b end in
      match lookup a, lookup b with
      | Some na, Some nb =>
          let* (a, na) := uptypes (Z.to_nat (Class nb - Class na)) (Class na) na a in
          let* (b, nb) := uptypes (Z.to_nat (Class na - Class nb)) (Class nb) nb b in
          Ok (a, b)
      | _, _ => Err
      end
    end.

  (* Number.ToIndex: int.go:15-17, bool.go:35-40 *)
  Definition ToIndex (n : num P) : option Z :=
    match n with NB b => Some (bool2int b) | NI z => Some z | NT p => pidx M p end.
  (* tower.go:137-147 ToBool *)
  Definition ToBool (n : num P) : option bool :=
    match ToIndex n with
    | None => None
    | Some i => if (i <? 0) || (1 <? i) then None else if i =? 0 then Some false else Some true
    end.
  (* tower.go:129-135 IsZero *)
  Definition IsZero (n : num P) : bool := match ToBool n with None => false | Some b => negb b end.

  (* tower.go:149-173 ToNumeric *)
  Definition ToNumeric (v : num P) : option (numeric P) :=
    match v with
    | NB _ => Some (mkNumeric (-2) (fun n => match n with NB b => (Some (NI (bool2int b)), true) | _ => (None, false) end))
    | NI _ => Some (mkNumeric (-1) (fun n => (Some (Import t n), true)))
    | NT _ => lookup v
    end.

  (* an elementary function: result, false (None), or panic.  The second
     argument of a dyadic one may be nil. *)
  Definition fn1 : Type := sval P -> outcome (option (sval P)).
  Definition fn2 : Type := sval P -> option (sval P) -> outcome (option (sval P)).

  (* elementary.go:129-142: the loop of arith1 *)
  Fixpoint arith1_loop (fuel : nat) (fn : fn1) (num_ : option (numeric P)) (n : num P) : outcome (sval P) :=
    let* r := fn (VNum n) in
    match r with
    | Some v => Ok v
    | None =>
        match num_ with
        | None => Panic                       (* nil pointer *)
        | Some nu =>
            match Uptype nu n, fuel with
            | (_, false), _ => Err
            | (None, true), _ => Panic
            | (Some n', true), S f => arith1_loop f fn (lookup n') n'
            | (Some _, true), O => Err        (* not reached, see P_Number.arith1_fuel *)
            end
        end
    end.
  (* elementary.go:112-144 arith1 *)
  Definition arith1 (fn : fn1) (R : sval P) : outcome (sval P) :=
    let* r := fn R in
    match r with
    | Some v => Ok v
    | None =>
        match R with
        | VOth _ _ => Err
        | VNum n =>
            match ToNumeric n with
            | None => Err
            | Some nu => arith1_loop (length (Numbers t) + 2) fn (Some nu) n
            end
        end
    end.

  (* elementary.go:180-191: the loop of arith2; k = len(Numbers) - i *)
  Fixpoint arith2_loop (k : nat) (fn : fn2) (num_ : option (numeric P)) (ln : num P) (rn : option (num P)) : outcome (sval P) :=
    match k with
    | O => Err
    | S k' =>
        let* r := fn (VNum ln) (option_map VNum rn) in
        match r with
        | Some v => Ok v
        | None =>
            match num_ with
            | None => Panic
            | Some nu =>
                match Uptype nu ln with
                | (_, false) => Err
                | (None, true) => Panic
                | (Some ln', true) =>
                    (* the ok of the right argument is ignored; uptyping nil panics *)
                    match rn with
                    | None => Panic
                    | Some r => arith2_loop k' fn (lookup ln') ln' (fst (Uptype nu r))
                    end
                end
            end
        end
    end.
  Definition vtype_eqb (L R : sval P) : bool :=
    match L, R with
    | VNum a, VNum b => ntype_eqb (typeOf a) (typeOf b)
    | VOth s _, VOth r _ => s =? r
    | _, _ => false
    end.
  (* elementary.go:149-194 arith2 *)
  Definition arith2 (fn : fn2) (L R : sval P) : outcome (sval P) :=
    let* direct := if vtype_eqb L R then fn L (Some R) else Ok None in
    match direct with
    | Some v => Ok v
    | None =>
        match L, R with
        | VNum ln, VNum rn =>
            let* (ln, rn) := SameType ln rn in
            match ToNumeric ln with
            | None => Err
            | Some nu => arith2_loop (Z.to_nat (zlen (Numbers t) - Class nu)) fn (Some nu) ln (Some rn)
            end
        | _, _ => Err
        end
    end.

  (* ---- the elementary functions: dispatch on the type of L, type assertion on R ---- *)
  Definition some_int (z : Z) : outcome (option (sval P)) := Ok (Some (VNum (NI z))).
  Definition with_int (L : sval P) (R : option (sval P)) (fi : Z -> Z -> option (sval P))
      (fp : P -> P -> outcome (option (sval P))) : outcome (option (sval P)) :=
    match L with
    | VNum (NI i) => match R with Some (VNum (NI j)) => Ok (fi i j) | _ => Panic end
    | VNum (NT p) => match R with Some (VNum (NT q)) => fp p q | _ => Panic end
    | _ => Ok None
    end.
  (* elementary.go:210-298 *)
  Definition add2 (L : sval P) (R : option (sval P)) := with_int L R (fun i j => Some (VNum (NI (int_add2 i j)))) (padd2 M).
  Definition sub2 (L : sval P) (R : option (sval P)) := with_int L R (fun i j => Some (VNum (NI (int_sub2 i j)))) (psub2 M).
  Definition mul2 (L : sval P) (R : option (sval P)) := with_int L R (fun i j => Some (VNum (NI (int_mul2 i j)))) (pmul2 M).
  Definition div2 (L : sval P) (R : option (sval P)) := with_int L R (fun i j => option_map (fun z => VNum (NI z)) (int_div2 i j)) (pdiv2 M).
  (* elementary.go:440-445 binomial on Int; tower types: not modelled *)
  Definition binomial_int (L R : Z) : option Z := int_gamma2 2 L R.
  (* elementary.go:210-215 sub (negation), 350-373 abs, 404-409 min (floor) *)
  Definition sub (R : sval P) : outcome (option (sval P)) :=
    match R with VNum (NI i) => some_int (int_neg i) | VNum (NT p) => pneg M p | _ => Ok None end.
  (* abs on a Bool (it has no Abs method) is not modelled: no caller here *)
  Definition abs (R : sval P) : outcome (option (sval P)) :=
    match R with VNum (NI i) => some_int (int_abs i) | VNum (NT p) => pabs M p | _ => Ok None end.
  Definition floor (R : sval P) : outcome (option (sval P)) :=
    match R with VNum (NI i) => some_int i | VNum (NT p) => pfloor M p | _ => Ok None end.
  (* elementary.go:244-249 mul (sign); psign: the method Mul of the tower types, not modelled *)
  Definition mul (psign : P -> outcome (option (sval P))) (R : sval P) : outcome (option (sval P)) :=
    match R with VNum (NI i) => some_int (int_sign i) | VNum (NT p) => psign p | _ => Ok None end.
  Definition asNum (v : sval P) : outcome (num P) := match v with VNum n => Ok n | _ => Panic end.
  (* the pattern  x, ok = e; if ok == false { return nil, false } *)
  Definition oksome {X Y} (e : outcome (option X)) (k : X -> outcome (option Y)) : outcome (option Y) :=
    let* r := e in match r with Some x => k x | None => Ok None end.
  (* SameType whose error is turned into false *)
  Definition sameOr {Y} (a b : num P) (k : num P * num P -> outcome (option Y)) : outcome (option Y) :=
    match SameType a b with Ok p => k p | Err => Ok None | Panic => Panic end.
  (* elementary.go:374-404 abs2: R-L×⌊R÷L+0=L *)
  Definition abs2 (L : sval P) (R : option (sval P)) : outcome (option (sval P)) :=
    let* ln := asNum L in
    sameOr (NB (IsZero ln)) ln (fun '(l0, _) =>
    oksome (add2 L (Some (VNum l0))) (fun x =>
    match R with
    | None => Panic
    | Some r =>
    oksome (div2 r (Some x)) (fun x =>
    oksome (floor x) (fun x =>
    let* xn := asNum x in
    sameOr ln xn (fun '(l, x) =>
    oksome (mul2 (VNum l) (Some (VNum x))) (fun x =>
    sub2 r (Some x)))))
    end)).

  (* compare.go:105-125 equals, less *)
  Definition go_eq (L R : sval P) : outcome bool :=   (* == on interface values *)
    match L, R with
    | VNum (NB a), VNum (NB b) => Ok (Bool.eqb a b)
    | VNum (NI a), VNum (NI b) => Ok (a =? b)
    | VNum (NT a), VNum (NT b) => if ptype M a =? ptype M b then peq M a b else Ok false
    | VOth s x, VOth r y => Ok ((s =? r) && String.eqb x y)
    | _, _ => Ok false
    end.
  Definition equals (L : sval P) (R : option (sval P)) : outcome bool :=
    match R with
    | None => match L with VNum (NT _) => Panic | _ => Ok false end
    | Some R => match L with
                | VNum (NT a) => match R with VNum (NT b) => peq M a b | _ => Panic end
                | _ => go_eq L R
                end
    end.
  Definition less (L : sval P) (R : option (sval P)) : outcome (option bool) :=
    match L with
    | VNum (NB a) => match R with Some (VNum (NB b)) => Ok (Some (negb a && b)) | _ => Ok None end
    | VNum (NI a) => match R with Some (VNum (NI b)) => Ok (Some (a <? b)) | _ => Panic end
    | VNum (NT a) => match R with Some (VNum (NT b)) => pless M a b | _ => Panic end
    | VOth s x =>               (* string.go:43-49; other values have no Less *)
        if s =? strT then match R with
                          | Some (VOth r y) => if r =? strT then Ok (Some (String.ltb x y)) else Ok None
                          | _ => Ok None
                          end
        else Ok None
    end.
  Inductive cmp := CEq | CLt | CGt | CNe | CLe | CGe.
  Definition vbool (b : bool) : sval P := VNum (NB b).
  (* compare.go:58-103 compare, equalless *)
  Definition compare (c : cmp) (L : sval P) (R : option (sval P)) : outcome (option (sval P)) :=
    match c with
    | CEq => let* e := equals L R in Ok (Some (vbool e))
    | CNe => let* e := equals L R in Ok (Some (vbool (negb e)))
    | CLt => oksome (less L R) (fun l => Ok (Some (vbool l)))
    | _ =>
        let* e := equals L R in
        oksome (less L R) (fun l =>
        Ok (Some (vbool (match c with CGt => negb e && negb l | CLe => e || l | _ => e || negb l end))))
    end.
  (* elementary.go:411-421, 434-444 min2, max2 *)
  Definition min2 (L : sval P) (R : option (sval P)) : outcome (option (sval P)) :=
    oksome (less L R) (fun l => if l then Ok (Some L) else Ok R).
  Definition max2 (L : sval P) (R : option (sval P)) : outcome (option (sval P)) :=
    oksome (less L R) (fun l => if l then Ok R else Ok (Some L)).

  (* elementary.go:475-509 lcm, gcd *)
  Definition gcd (L : sval P) (R : option (sval P)) : outcome (option (sval P)) :=
    let* ln := asNum L in
    if IsZero ln then Ok R else
    match R with
    | None => Panic
    | Some r =>
        let* rn := asNum r in
        if IsZero rn then Ok (Some L) else
        with_int L R (fun i j => Some (VNum (NI (int_gcd i j)))) (pgcd M)
    end.
  Definition lcm (L : sval P) (R : option (sval P)) : outcome (option (sval P)) :=
    let* ln := asNum L in
    if IsZero ln then Ok (Some (VNum (NI 0))) else
    match R with
    | None => Panic
    | Some r =>
        let* rn := asNum r in
        if IsZero rn then Ok (Some (VNum (NI 0))) else
        oksome (mul2 L R) (fun p =>
        oksome (abs p) (fun ab =>
        oksome (gcd L R) (fun g =>
        div2 ab (Some g))))
    end.
  (* boolean.go:57-95 logicalNot, logical *)
  Inductive logic := LAnd | LOr | LNand | LNor.
  Definition logicalNot (R : sval P) : outcome (option (sval P)) :=
    let* n := asNum R in
    match ToBool n with None => Ok None | Some b => Ok (Some (vbool (negb b))) end.
  Definition logical (g : logic) (L : sval P) (R : option (sval P)) : outcome (option (sval P)) :=
    let* ln := asNum L in
    match R with
    | None => Panic
    | Some r =>
        let* rn := asNum r in
        match ToBool ln, ToBool rn with
        | Some l, Some r' =>
            Ok (Some (vbool (match g with LAnd => l && r' | LOr => l || r' | LNand => negb (l && r') | LNor => negb (l || r') end)))
        | _, _ => match g with LAnd => lcm L R | LOr => gcd L R | _ => Ok None end
        end
    end.

  (* iota.go:228-252 isEqual; ToNumber accepts numbers only (on scalars) *)
  Definition isEqual (x y : sval P) : outcome bool :=
    let* e := go_eq x y in
    if e then Ok true else
    match x, y with
    | VNum a, VNum b =>
        match SameType a b with
        | Ok (a, b) => match a with
                       | NT p => match b with NT q => peq M p q | _ => Panic end
                       | _ => go_eq (VNum a) (VNum b)
                       end
        | Err => Ok false
        | Panic => Panic
        end
    | _, _ => Ok false
    end.
End TOWER.

(* ---------------- the exact tower: big/register.go:26-53 ---------------- *)
Inductive bignum := BI (z : Z) | BR (q : Q).
Definition tBI : Z := 0.
Definition tBR : Z := 1.
Definition exc (s : string) : sval bignum := VOth excT s.
Definition bi2 (f : Z -> Z -> option (sval bignum)) (g : Q -> Q -> option (sval bignum)) (a b : bignum) : outcome (option (sval bignum)) :=
  match a, b with BI x, BI y => Ok (f x y) | BR x, BR y => Ok (g x y) | _, _ => Panic end.
Definition sBI (z : Z) : option (sval bignum) := Some (VNum (NT (BI z))).
Definition sBR (q : Q) : option (sval bignum) := Some (VNum (NT (BR (Qred q)))).
(* big/int.go:46-55, rat.go:46-52 ToIndex *)
Definition big_idx (p : bignum) : option Z :=
  let i64 z := if (minint <=? z) && (z <=? maxint) then Some z else None in
  match p with
  | BI z => i64 z
  | BR q => let r := Qred q in if Pos.eqb (Qden r) 1 then i64 (Qnum r) else None
  end.
(* big/int.go:105-129 Div2 (big.Int.Div is the Euclidean quotient) *)
Definition euclid_quot (a b : Z) : Z := if 0 <? b then Z.div a b else - Z.div a (- b).
Definition big_idiv2 (x y : Z) : option (sval bignum) :=
  if (x =? 0) && (y =? 0) then Some (exc "NaN") else
  if x =? 0 then sBI 0 else
  if y =? 0 then Some (exc "inf") else
  let b := euclid_quot x y in
  if b * y =? x then sBI b else None.
(* big/rat.go:106-128 *)
Definition big_rdiv2 (x y : Q) : option (sval bignum) :=
  let x0 := Qeq_bool x 0 in let y0 := Qeq_bool y 0 in
  if x0 && y0 then Some (exc "NaN") else
  if x0 then sBI 0 else
  if y0 then Some (exc "inf") else sBR (x / y).
(* big/rat.go:176-190: Gcd *)
Definition big_rgcd (x y : Q) : option (sval bignum) :=
  let '(a, b) := (Qnum x, Zpos (Qden x)) in
  let '(c, d) := (Qnum y, Zpos (Qden y)) in
  sBR (Qmake (Z.gcd (a * d) (c * b)) (Z.to_pos (b * d))).
Section BIGTOWER.
  (* big/rat.go:171-174 Floor goes through float64 and is not exact; it is a
     parameter of the model *)
  Context (ratfloor : Q -> Q).
  Definition bigM : methods bignum := {|
    ptype := fun p => match p with BI _ => tBI | BR _ => tBR end;
    pidx := big_idx;
    peq := fun a b => match a, b with BI x, BI y => Ok (x =? y) | BR x, BR y => Ok (Qeq_bool x y) | _, _ => Panic end;
    pless := fun a b => match a, b with BI x, BI y => Ok (Some (x <? y)) | BR x, BR y => Ok (Some (negb (Qle_bool y x))) | _, _ => Panic end;
    padd2 := bi2 (fun x y => sBI (x + y)) (fun x y => sBR (x + y));
    psub2 := bi2 (fun x y => sBI (x - y)) (fun x y => sBR (x - y));
    pmul2 := bi2 (fun x y => sBI (x * y)) (fun x y => sBR (x * y));
    pdiv2 := bi2 big_idiv2 big_rdiv2;
    pgcd := bi2 (fun x y => sBI (Z.gcd x y)) big_rgcd;
    pneg := fun p => Ok (match p with BI z => sBI (- z) | BR q => sBR (- q) end);
    pabs := fun p => Ok (match p with BI z => sBI (Z.abs z) | BR q => sBR (Qabs q) end);
    pfloor := fun p => Ok (match p with BI z => sBI z | BR q => sBR (ratfloor q) end)
  |}.
  Definition big_numbers : list (Z * numeric bignum) :=
    [(tBI, mkNumeric 0 (fun n => match n with NT (BI z) => (Some (NT (BR (inject_Z z))), true) | _ => (None, false) end));
     (tBR, mkNumeric 1 (fun n => (Some n, false)))].
  Definition big_import (n : num bignum) : num bignum :=
    match n with NB b => NT (BI (bool2int b)) | NI z => NT (BI z) | NT p => NT p end.
  Definition bigT : tower bignum := mkTower big_numbers (map snd big_numbers) big_import.
End BIGTOWER.

(* ---------------- the default tower: numbers/register.go:20-65 ---------------- *)
(* Float is an IEEE double (Coq's specification floats).  Complex and Time are
   parameters. *)
Definition fprec : Z := 53.
Definition femax : Z := 1024.
Definition f_add := SFadd fprec femax.
Definition f_sub := SFsub fprec femax.
Definition f_mul := SFmul fprec femax.
Definition f_div := SFdiv fprec femax.
Definition f_of_int (z : Z) : spec_float := binary_normalize fprec femax z 0 false.
(* math.Floor *)
Definition f_floor (f : spec_float) : spec_float :=
  match f with
  | S754_finite s m e =>
      if 0 <=? e then f else
      binary_normalize fprec femax ((if s then Zneg m else Zpos m) / 2 ^ (- e)) 0 false
  | _ => f
  end.
(* int(f), amd64: truncation, minint when out of range or NaN *)
Definition f_to_int (f : spec_float) : Z :=
  match f with
  | S754_zero _ => 0
  | S754_finite s m e =>
      let z := if s then Zneg m else Zpos m in
      let z := if 0 <=? e then z * 2 ^ e else Z.quot z (2 ^ (- e)) in
      if (minint <=? z) && (z <=? maxint) then z else minint
  | _ => minint
  end.
(* numbers/float.go:52-58 ToIndex *)
Definition f_idx (f : spec_float) : option Z :=
  let n := f_to_int f in if SFeqb (f_of_int n) f then Some n else None.

Section DEFAULT.
  Context {C T : Type} (cM : methods C) (tM : methods T)
          (f2c : spec_float -> C) (c2t : C -> option T).
  Inductive dnum := DF (f : spec_float) | DC (c : C) | DT (d : T).
  Definition tDF : Z := 0. Definition tDC : Z := 1. Definition tDT : Z := 2.
  (* exception.go:24-34 isException *)
  Definition f_exc (f : spec_float) : sval dnum :=
    match f with
    | S754_nan => VOth excT "NaN"
    | S754_infinity false => VOth excT "inf"
    | S754_infinity true => VOth excT "-inf"
    | _ => VNum (NT (DF f))
    end.
  Definition inj {X} (g : X -> dnum) (r : outcome (option (sval X))) : outcome (option (sval dnum)) :=
    omap (option_map (fun v => match v with
      | VNum (NB b) => VNum (NB b) | VNum (NI z) => VNum (NI z) | VNum (NT p) => VNum (NT (g p))
      | VOth t s => VOth t s end)) r.
  Definition d2 (f : spec_float -> spec_float -> sval dnum) (g : C -> C -> outcome (option (sval C)))
      (h : T -> T -> outcome (option (sval T))) (a b : dnum) : outcome (option (sval dnum)) :=
    match a, b with
    | DF x, DF y => Ok (Some (f x y))
    | DC x, DC y => inj DC (g x y)
    | DT x, DT y => inj DT (h x y)
    | _, _ => Panic
    end.
  Definition vF (f : spec_float) : sval dnum := VNum (NT (DF f)).
  Definition dM : methods dnum := {|
    ptype := fun p => match p with DF _ => tDF | DC _ => tDC | DT _ => tDT end;
    pidx := fun p => match p with DF f => f_idx f | DC c => pidx cM c | DT d => pidx tM d end;
    peq := fun a b => match a, b with DF x, DF y => Ok (SFeqb x y) | DC x, DC y => peq cM x y | DT x, DT y => peq tM x y | _, _ => Panic end;
    pless := fun a b => match a, b with DF x, DF y => Ok (Some (SFltb x y)) | DC x, DC y => pless cM x y | DT x, DT y => pless tM x y | _, _ => Panic end;
    padd2 := d2 (fun x y => vF (f_add x y)) (padd2 cM) (padd2 tM);
    psub2 := d2 (fun x y => vF (f_sub x y)) (psub2 cM) (psub2 tM);
    pmul2 := d2 (fun x y => vF (f_mul x y)) (pmul2 cM) (pmul2 tM);
    pdiv2 := d2 (fun x y => f_exc (f_div x y)) (pdiv2 cM) (pdiv2 tM);
    (* Float.Gcd works on decimal expansions (float.go:245-265): not modelled *)
    pgcd := fun a b => match a, b with DC x, DC y => inj DC (pgcd cM x y) | DT x, DT y => inj DT (pgcd tM x y) | _, _ => Ok None end;
    pneg := fun p => match p with DF x => Ok (Some (vF (SFopp x))) | DC c => inj DC (pneg cM c) | DT d => inj DT (pneg tM d) end;
    pabs := fun p => match p with DF x => Ok (Some (vF (SFabs x))) | DC c => inj DC (pabs cM c) | DT d => inj DT (pabs tM d) end;
    pfloor := fun p => match p with DF x => Ok (Some (vF (f_floor x))) | DC c => inj DC (pfloor cM c) | DT d => inj DT (pfloor tM d) end
  |}.
  Definition d_numbers : list (Z * numeric dnum) :=
    [(tDF, mkNumeric 0 (fun n => match n with NT (DF f) => (Some (NT (DC (f2c f))), true) | _ => (None, false) end));
     (tDC, mkNumeric 1 (fun n => match n with
                                 | NT (DC c) => match c2t c with Some d => (Some (NT (DT d)), true) | None => (None, false) end
                                 | _ => (None, false) end));
     (tDT, mkNumeric 2 (fun n => (Some n, false)))].
  Definition d_import (n : num dnum) : num dnum :=
    match n with NB b => NT (DF (f_of_int (bool2int b))) | NI z => NT (DF (f_of_int z)) | NT p => NT p end.
  Definition dT : tower dnum := mkTower d_numbers (map snd d_numbers) d_import.
End DEFAULT.
Arguments dnum : clear implicits.
