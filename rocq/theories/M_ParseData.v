(* M_ParseData.v -- model of the dyadic ⍎: L⍎S reads a value from the text S
   (apl/primitives/format.go:163-188 parseData, apl/fmt.go:168-187 ParseArray with a prototype,
   apl/object.go:151-159 ParseDict, apl/table.go:163-171 ParseTable).

   The texts are those of M_Format; the elements are the scalars of M_Number: num is
   Tower.Parse, str makes a string value from runes. *)
From Coq Require Import String.
From Verif Require Import Base M_Array M_Number M_Scalar M_Scan M_Strings M_Format.
Open Scope Z_scope.

Section ParseData.
  Context {P : Type} (M : methods P) (t : tower P) (hu : ntype -> bool).
  Context (C : scanner) (num : text -> option (sval P)) (str : text -> sval P).

  (* the left argument: a string, an array, a dictionary, a table or something else *)
  Inductive proto := PText (s : text) | PArr (u : rep P) | PDict | PTable | POther.

  (* reflect.TypeOf(res) != reflect.TypeOf(u), for uniform arrays *)
  Definition same_array_type (a b : rep P) : bool :=
    match a, b with
    | RMixed _, RMixed _ | RList _, RList _ | RBools _, RBools _ | RInts _, RInts _ | RStrings _, RStrings _ | REmpty, REmpty => true
    | RNums x _, RNums y _ => x =? y
    | _, _ => false
    end.
  (* fmt.go:168-187; v.(Array) panics for a scalar, the result without a prototype is a MixedArray *)
  Definition ParseArrayAs (p : option (rep P)) (s : text) : outcome (rep P) :=
    let* c := ParseArray C num str s in
    match p with
    | Some u =>
        if isUniform u then
          match c with
          | Atom _ => Panic
          | Cell v =>
              let* w := Unify M t hu (RMixed v) true in
              if snd w : bool then if same_array_type (fst w) u then Ok (fst w) else Err else Err
          end
        else match c with Atom _ => Panic | Cell v => Ok (RMixed v) end
    | None => match c with Atom _ => Panic | Cell v => Ok (RMixed v) end
    end.
  (* object.go:151-159, table.go:163-171: not done *)
  Definition ParseDict : outcome (rep P) := Err.
  Definition ParseTable : outcome (rep P) := Err.
  (* format.go:163-188; 65, 68, 84 are the runes A, D, T *)
  Definition parseData (L : proto) (s : text) : outcome (rep P) :=
    match L with
    | PArr u => ParseArrayAs (Some u) s
    | PDict => ParseDict
    | PTable => ParseTable
    | POther => Err
    | PText [65] => ParseArrayAs None s
    | PText [68] => ParseDict
    | PText [84] => ParseTable
    | PText _ => Err
    end.
End ParseData.
Arguments proto P : clear implicits.
