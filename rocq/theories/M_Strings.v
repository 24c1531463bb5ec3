(* M_Strings.v -- model of string catenation, joining and splitting:
   apl/primitives/enclose.go, with the functions of the Go library that it calls
   (strings.Join, strings.Split, strings.Fields, the conversions between strings and
   runes), which are modelled from their documentation and source.

   A string is the list of its bytes, numbers from 0 to 255. *)
From Verif Require Import Base M_Array M_Scan.

Definition bytes := list Z.

(* ---------- UTF-8 (Go: unicode/utf8) ---------- *)
(* utf8.EncodeRune, string(rune): runes out of range and surrogates become U+FFFD *)
Definition encodeRune (r : Z) : bytes :=
  let three r := [224 + r / 4096; 128 + (r / 64) mod 64; 128 + r mod 64] in
  if (r <? 0) || (1114111 <? r) || ((55296 <=? r) && (r <=? 57343)) then three 65533
  else if r <? 128 then [r]
  else if r <? 2048 then [192 + r / 64; 128 + r mod 64]
  else if r <? 65536 then three r
  else [240 + r / 262144; 128 + (r / 4096) mod 64; 128 + (r / 64) mod 64; 128 + r mod 64].
Definition cont (b : Z) : bool := (128 <=? b) && (b <=? 191).
(* utf8.DecodeRune: the first rune and the number of its bytes; an invalid sequence is
   decoded as U+FFFD of one byte *)
Definition decodeRune (s : bytes) : option (Z * bytes * bytes) :=
  match s with
  | [] => None
  | b0 :: t =>
      let bad := Some (65533, [b0], t) in
      if b0 <? 128 then Some (b0, [b0], t)
      else if (194 <=? b0) && (b0 <=? 223) then
        match t with
        | b1 :: t1 => if cont b1 then Some ((b0 - 192) * 64 + (b1 - 128), [b0; b1], t1) else bad
        | _ => bad
        end
      else if (224 <=? b0) && (b0 <=? 239) then
        match t with
        | b1 :: b2 :: t2 =>
            let lo := if b0 =? 224 then 160 else 128 in
            let hi := if b0 =? 237 then 159 else 191 in
            if (lo <=? b1) && (b1 <=? hi) && cont b2
            then Some ((b0 - 224) * 4096 + (b1 - 128) * 64 + (b2 - 128), [b0; b1; b2], t2) else bad
        | _ => bad
        end
      else if (240 <=? b0) && (b0 <=? 244) then
        match t with
        | b1 :: b2 :: b3 :: t3 =>
            let lo := if b0 =? 240 then 144 else 128 in
            let hi := if b0 =? 244 then 143 else 191 in
            if (lo <=? b1) && (b1 <=? hi) && cont b2 && cont b3
            then Some ((b0 - 240) * 262144 + (b1 - 128) * 4096 + (b2 - 128) * 64 + (b3 - 128), [b0; b1; b2; b3], t3) else bad
        | _ => bad
        end
      else bad
  end.
(* for _, r := range s: the runes of a string, each with its bytes; n bounds the number of
   steps, one byte at least is consumed by each *)
Fixpoint decodeN (n : nat) (s : bytes) : list (Z * bytes) :=
  match n with
  | O => []
  | S n' => match decodeRune s with None => [] | Some (r, b, t) => (r, b) :: decodeN n' t end
  end.
Definition decode (s : bytes) : list (Z * bytes) := decodeN (length s) s.

(* ---------- strings.Join, strings.Index, strings.Split, strings.Fields ---------- *)
Fixpoint Join (v : list bytes) (sep : bytes) : bytes :=
  match v with
  | [] => []
  | [x] => x
  | x :: r => x ++ sep ++ Join r sep
  end.
Fixpoint HasPrefix (s p : bytes) : bool :=
  match p, s with
  | [], _ => true
  | _, [] => false
  | b :: p', c :: s' => (b =? c) && HasPrefix s' p'
  end.
(* the text before the first occurrence of sep and the text that starts with it *)
Fixpoint Index (s sep : bytes) : option (bytes * bytes) :=
  if HasPrefix s sep then Some ([], s)
  else match s with
       | [] => None
       | b :: s' => match Index s' sep with None => None | Some (x, y) => Some (b :: x, y) end
       end.
(* strings.Split for a separator that is not empty; n bounds the number of parts *)
Fixpoint splitN (n : nat) (s sep : bytes) : list bytes :=
  match n with
  | O => [s]
  | S n' => match Index s sep with
            | None => [s]
            | Some (x, y) => x :: splitN n' (skipn (length sep) y) sep
            end
  end.
Definition Split (s sep : bytes) : list bytes := splitN (length s) s sep.

Section Fields.
  Context (U : unicode).
  (* strings.Fields: acc is the field that is being read *)
  Fixpoint fieldsAcc (acc : bytes) (l : list (Z * bytes)) : list bytes :=
    match l with
    | [] => match acc with [] => [] | _ => [acc] end
    | (r, b) :: l' =>
        if IsSpace U r then (match acc with [] => fieldsAcc [] l' | _ => acc :: fieldsAcc [] l' end)
        else fieldsAcc (acc ++ b) l'
    end.
  Definition Fields (s : bytes) : list bytes := fieldsAcc [] (decode s).

  (* ---------- enclose.go ---------- *)
  (* The elements of an array: strings, or values of another type, which are not
     distinguished. *)
  Definition elt := option bytes.
  (* enclose.go:44-60 strvec.To; None: the domain does not accept the value *)
  Fixpoint strvec (l : list elt) : option (list bytes) :=
    match l with
    | [] => Some []
    | Some s :: r => match strvec r with None => None | Some v => Some (s :: v) end
    | None :: _ => None
    end.
  (* enclose.go:67-70 strcat: ⊂R, with the domain of its registration (:12-17) *)
  Definition strcat (R : arr elt) : outcome bytes :=
    match strvec (elems R) with None => Err | Some v => Ok (Join v []) end.
  (* enclose.go:72-75 strjoin: L⊂R, with the domain of its registration (:18-23) *)
  Definition strjoin (L : bytes) (R : arr elt) : outcome bytes :=
    match strvec (elems R) with None => Err | Some v => Ok (Join v L) end.
  (* enclose.go:77-84 runesplit: ⊃R *)
  Definition runesplit (R : bytes) : arr bytes :=
    let v := map (fun rb => encodeRune (fst rb)) (decode R) in mkArr [zlen v] v.
  (* enclose.go:89-99 strsplit: L⊃R *)
  Definition strsplit (L R : bytes) : arr bytes :=
    let v := match L with [] => Fields R | _ => Split R L end in mkArr [zlen v] v.
End Fields.
