(* M_Ratio.v -- model of the texts of exact numbers: big/int.go:20-41, big/rat.go:25-64 and the
   order in which the tower of exact numbers reads a text (apl/tower.go:37-64, big/register.go:26-51). *)
From Coq Require Export QArith.
From Verif Require Import Base M_Scan M_Strings M_Format M_Dispatch M_Number.
Open Scope Z_scope.

Definition r_slash := 47.
Definition r_r := 114.
(* the decimal digits of a natural number of any size (math/big nat.utoa) *)
Definition bigDecimal (n : Z) : text := digits_of (S (Z.to_nat (Z.log2 n))) n [].
(* math/big Int.String *)
Definition bigIntText (z : Z) : text := if z <? 0 then r_minus :: bigDecimal (- z) else bigDecimal z.
(* big/int.go:20-27: - becomes ¯, whatever the format is *)
Definition IntString (z : Z) : text :=
  match bigIntText z with r :: s => if r =? r_minus then r_macron :: s else r :: s | [] => [] end.
(* strings.HasSuffix(s, "/1") *)
Definition one_suffix (s : text) : bool := match rev s with a :: b :: _ => (a =? 49) && (b =? r_slash) | _ => false end.
(* strings.Replace(s, string(a), string(b), 1) *)
Fixpoint replace1 (a b : Z) (s : text) : text :=
  match s with [] => [] | r :: s' => if r =? a then b :: s' else r :: replace1 a b s' end.
(* big/rat.go:25-44 without a format; minus is set for print precisions below ¯1
   (register.go getformat).  A big.Rat is always in lowest terms. *)
Definition RatString (minus : bool) (q : Q) : text :=
  let q := Qred q in
  let s := bigIntText (Qnum q) ++ r_slash :: bigDecimal (Zpos (Qden q)) in
  let s := if minus then s else map (fun r => if r =? r_minus then r_macron else r) s in
  if one_suffix s then firstn (length s - 2) s else replace1 r_slash r_r s.
Definition bigString (minus : bool) (v : bignum) : text := match v with BI z => IntString z | BR q => RatString minus q end.

(* math/big Int.SetString(s, 10): an optional sign and digits up to the end *)
Definition signed {A} (f : bool -> text -> A) (s : text) : A :=
  match s with
  | r :: s' => if r =? 45 then f true s' else if r =? 43 then f false s' else f false s
  | [] => f false s
  end.
Definition decimal_value (s : text) : option Z := match s with [] => None | _ => digits_value 10 0 s end.
Definition negated (neg : bool) (n : Z) : Z := if neg then - n else n.
Definition SetString10 (s : text) : option Z := signed (fun neg s => option_map (negated neg) (decimal_value s)) s.
(* big/int.go:34-41 *)
Definition BigParseInt (s : text) : option Z := SetString10 (macron_to_minus s).
(* math/big nat.scan for base 0: the digits that can be read, and the rest *)
Fixpoint scan_digits (base acc : Z) (s : text) : Z * text :=
  match s with
  | [] => (acc, [])
  | r :: s' => match digit_value base r with None => (acc, s) | Some v => scan_digits base (acc * base + v) s' end
  end.
Definition digits_needed (base : Z) (s : text) : option (Z * text) :=
  match s with
  | [] => None
  | r :: _ => match digit_value base r with None => None | Some _ => Some (scan_digits base 0 s) end
  end.
Definition nat_scan (s : text) : option (Z * text) :=
  match s with
  | [] => None
  | r :: s' =>
      if r =? 48 then
        match s' with
        | [] => Some (0, [])
        | x :: s'' => if in_runes x [120; 88] then digits_needed 16 s''
                      else if in_runes x [98; 66] then digits_needed 2 s''
                      else Some (scan_digits 8 0 s')
        end
      else digits_needed 10 s
  end.
Definition complete (r : option (Z * text)) : option Z := match r with Some (z, []) => Some z | _ => None end.
Section Ratio.
  Context (strict : bool).                    (* newer Go releases refuse what follows the denominator *)
  Context (float_text : text -> option Q).    (* Rat.SetString of a text without a slash *)
  Fixpoint cut_slash (s : text) : option (text * text) :=
    match s with
    | [] => None
    | r :: s' => if r =? r_slash then Some ([], s') else option_map (fun p => (r :: fst p, snd p)) (cut_slash s')
    end.
  (* math/big Rat.SetString *)
  Definition RatSetString (s : text) : option Q :=
    match s with
    | [] => None
    | _ =>
      match cut_slash s with
      | None => float_text s
      | Some (a, b) =>
          match signed (fun neg a => option_map (negated neg) (complete (nat_scan a))) a with
          | None => None
          | Some n =>
              match nat_scan b with
              | None => None
              | Some (d, rest) =>
                  if strict && negb (match rest with [] => true | _ => false end) then None
                  else if d =? 0 then None else Some (Qred (Qmake n (Z.to_pos d)))
              end
          end
      end
    end.
  (* big/rat.go:54-63 *)
  Definition ParseRat (s : text) : option Q := RatSetString (replace1 r_r r_slash (macron_to_minus s)).
  (* tower.go:37-64 with the numbers of big/register.go:26-51; booleans and machine integers become
     big integers when they are evaluated (Import) *)
  Definition readExact (s : text) : option bignum :=
    if list_eqb s [49; 98] then Some (BI 1)
    else if list_eqb s [48; 98] then Some (BI 0)
    else match ParseInt s with
         | Some z => Some (BI z)
         | None => match BigParseInt s with
                   | Some z => Some (BI z)
                   | None => option_map BR (ParseRat s)
                   end
         end.
End Ratio.
