(* M_Format.v -- model of the text of arrays and of reading it: apl/fmt.go, with the texts of
   integers, booleans and strings (apl/int.go, apl/bool.go, apl/string.go) and
   Tower.Parse (apl/tower.go). *)
From Verif Require Import Base M_Array M_Scan M_Strings.

Definition r_newline := 10. Definition r_space := 32. Definition r_comma := 44. Definition r_semicolon := 59.
Definition r_lbrack := 91. Definition r_rbrack := 93. Definition r_lparen := 40. Definition r_rparen := 41.

(* ---------- formatting: fmt.go ---------- *)
Section Format.
  Context {A : Type}.
  Context (show : A -> text).    (* String(f) of an element *)

  (* fmt.go:77-88 inc: the index and the shape are given with the last axis first; the
     number of axes that start again, or -1 if all do *)
  Fixpoint inc_from (i : Z) (idx shape : list Z) : list Z * Z :=
    match idx, shape with
    | k :: idx', d :: shape' =>
        if k + 1 =? d then let (r, t) := inc_from (i + 1) idx' shape' in (0 :: r, t) else (k + 1 :: idx', i)
    | _, _ => ([], -1)
    end.
  (* fmt.go:91-100 the loop over the elements.  The tabwriter, which aligns the columns by
     inserting blanks before each element (at least one: the padding), is modelled in M_Tabs.v:
     here pad n + 1 is the number of blanks before the n-th element, any number (C173_array). *)
  Fixpoint table_rows (pad : nat -> nat) (n : nat) (idx shape : list Z) (l : list A) : text :=
    match l with
    | [] => []
    | x :: l' =>
        let (idx', term) := inc_from 0 idx shape in
        repeat r_space (S (pad n)) ++ show x
        ++ (if 0 <? term then repeat r_newline (Z.to_nat term) else if term =? -1 then [r_newline] else [])
        ++ table_rows pad (S n) idx' shape l'
    end.
  (* fmt.go:103-108 *)
  Definition strip_newline (s : text) : text :=
    match rev s with r :: s' => if r =? r_newline then rev s' else s | [] => s end.
  (* fmt.go:56-109 ArrayString for PP >= -1 *)
  Definition tableArray (pad : nat -> nat) (v : arr A) : text :=
    match dims v with
    | [] => []
    | [_] => Join (map show (elems v)) [r_space]
    | shape => strip_newline (table_rows pad 0 (zerosZ (length shape)) (rev shape) (elems v))
    end.

  (* fmt.go:122-138 jsonArray: vector, on the strings of the elements *)
  Fixpoint json_vector (ds : list Z) (s : list text) : outcome text :=
    match ds with
    | [] => Panic
    | [d] => if zlen s <? d then Panic else Ok ([r_lbrack] ++ Join (firstn (Z.to_nat d) s) [r_comma] ++ [r_rbrack])
    | d :: ds' =>
        let inc := Prod ds' in
        let* vec := mapM (fun i => if zlen s <? i * inc then Panic else json_vector ds' (skipn (Z.to_nat (i * inc)) s)) (zseq d) in
        Ok ([r_lbrack] ++ Join vec [r_comma] ++ [r_rbrack])
    end.
  (* fmt.go:121-139 jsonArray (PP = -2) *)
  Definition jsonArray (v : arr A) : outcome text := json_vector (dims v) (map show (elems v)).

  (* fmt.go:150-157 matArray: the rows *)
  Fixpoint mat_rows (n : nat) (cols : Z) (s : list text) : outcome text :=
    match n with
    | O => Ok []
    | S n' =>
        if zlen s <? cols then Panic
        else
          let row := Join (firstn (Z.to_nat cols) s) [r_comma] in
          let* rest := mat_rows n' cols (skipn (Z.to_nat cols) s) in
          Ok (row ++ (match n' with O => [] | _ => [r_semicolon] end) ++ rest)
    end.
  Definition rank_error : text := [91; 114; 97; 110; 107; 32; 101; 114; 114; 111; 114; 93].
  (* fmt.go:142-161 matArray (PP = -3) *)
  Definition matArray (v : arr A) : outcome text :=
    let s := map show (elems v) in
    match dims v with
    | [_] => Ok ([r_lbrack] ++ Join s [r_comma] ++ [r_rbrack])
    | [rows; cols] => let* t := mat_rows (Z.to_nat rows) cols s in Ok ([r_lbrack] ++ t ++ [r_rbrack])
    | _ => Ok rank_error
    end.
End Format.

(* ---------- reading: fmt.go:188-277 ---------- *)
Section Read.
  Context {A : Type}.
  Context (C : scanner).
  Context (num : text -> option A).    (* Tower.Parse *)
  Context (str : text -> A).           (* the value of a string *)

  Inductive cell := Atom (x : A) | Cell (a : arr A).
  (* the state when the loop ends: a scalar, for rank 0, or values and shape; and the text
     that has not been read *)
  Inductive loop_result := Found (x : A) (rest : text) | Ended (values : list A) (shape : list Z) (rest : text).

  Definition closing (r : Z) : bool := in_runes r [r_newline; r_semicolon; r_rbrack].
  Definition skipped (r : Z) : bool := IsSpace (s_unicode C) r || in_runes r [r_comma; r_lbrack; r_lparen; r_rparen].
  (* fmt.go:208-214 a new axis *)
  Definition extend (n : Z) (shape : list Z) : outcome (list Z) :=
    match shape with
    | [] => Ok [n]
    | _ => let p := Prod shape in if p =? 0 then Panic else Ok (Z.quot n p :: shape)
    end.
  (* fmt.go:198-248 the loop; every turn reads at least one rune, except for a number without
     runes, which Tower.Parse does not accept *)
  Fixpoint scan_loop (fuel : nat) (rank : Z) (values : list A) (c : Z) (shape : list Z) (s : text) : outcome loop_result :=
    match fuel with
    | O => match s with [] => Ok (Ended values shape []) | _ => Err end
    | S fuel' =>
        match s with
        | [] => Ok (Ended values shape [])
        | r :: s' =>
            if closing r then
              match values with
              | [] => scan_loop fuel' rank values c shape s'
              | _ =>
                  let c := c + 1 in
                  if c =? rank then Ok (Ended values shape s')
                  else let* shape := (if zlen shape <? c then extend (zlen values) shape else Ok shape) in
                       scan_loop fuel' rank values c shape s'
              end
            else if skipped r then scan_loop fuel' rank values c shape s'
            else if r =? r_dquote then
              let* wr := ReadString C s in
              if rank =? 0 then Ok (Found (str (fst wr)) (snd wr))
              else scan_loop fuel' rank (values ++ [str (fst wr)]) 0 shape (snd wr)
            else
              let (w, rest) := ScanNumber s in
              match num w with
              | None => Err
              | Some x => if rank =? 0 then Ok (Found x rest) else scan_loop fuel' rank (values ++ [x]) 0 shape rest
              end
        end
    end.
  (* fmt.go:260-271 the leading axes; i is the loop variable *)
  Fixpoint lead_axes (fuel : nat) (i rank n : Z) (shape : list Z) : outcome (list Z) :=
    if i <=? rank - zlen shape then
      match fuel with
      | O => Panic
      | S fuel' =>
          let p := match shape with [] => 1 | _ => Prod shape end in
          if p =? 0 then Err
          else let shape' := Z.quot n p :: shape in
               if Prod shape' =? n then lead_axes fuel' (i + 1) rank n shape' else Err
      end
    else Ok shape.
  (* fmt.go:194-277 ScanRankArray: None is io.EOF *)
  Definition ScanRankArray (rank : Z) (s : text) : outcome (option (cell * text)) :=
    let* r := scan_loop (length s) rank [] 0 [] s in
    match r with
    | Found x rest => Ok (Some (Atom x, rest))
    | Ended [] _ _ => Ok None
    | Ended values shape rest =>
        let n := zlen values in
        let rank := if rank <? 0 then (if Prod shape =? n then zlen shape - 1 else zlen shape) else rank in
        let* shape := lead_axes (S (Z.to_nat (rank + 1))) 0 rank n shape in
        Ok (Some (Cell (mkArr shape values), rest))
    end.
  (* fmt.go:168-187 ParseArray without a prototype *)
  Definition ParseArray (s : text) : outcome cell :=
    let* r := ScanRankArray (-1) s in
    match r with None => Err | Some (v, _) => Ok v end.
  (* rank.go:295-312 sendParseSubArray: the values that are sent, if nobody closes the
     channel; every value is read from at least one rune.  None: an error has been sent *)
  Fixpoint read_cells (fuel : nat) (rank : Z) (s : text) : list (option cell) :=
    match fuel with
    | O => []
    | S fuel' =>
        match ScanRankArray rank s with
        | Ok None => []
        | Ok (Some (v, rest)) => Some v :: read_cells fuel' rank rest
        | _ => [None]
        end
    end.
End Read.
Arguments Atom {A} x.
Arguments Cell {A} a.

(* ---------- the texts of integers, booleans and strings ---------- *)
Inductive elt A := EBool (b : bool) | EInt (z : Z) | EString (s : text) | EOther (a : A).
Arguments EBool {A} b. Arguments EInt {A} z. Arguments EString {A} s. Arguments EOther {A} a.

(* fmt.Sprintf("%v", i): the decimal digits; the number is split from its end *)
Fixpoint digits_of (fuel : nat) (n : Z) (acc : text) : text :=
  match fuel with
  | O => acc
  | S fuel' => let acc := (48 + n mod 10) :: acc in if n <? 10 then acc else digits_of fuel' (n / 10) acc
  end.
Definition decimal (n : Z) : text := digits_of 20 n [].
Definition r_minus := 45.
(* int.go:21-43 Int.String for PP other than -8 and -16, no format given: - becomes ¯ *)
Definition intString (z : Z) : text := if z <? 0 then r_macron :: decimal (- z) else decimal z.
(* bool.go:9-20 Bool.String for PP < 0 *)
Definition boolString (b : bool) : text := if b then [49; 98] else [48; 98].

(* strconv.ParseInt(s, base, 64), base 0: a leading 0x or 0 selects base 16 or 8 *)
Definition digit_value (base r : Z) : option Z :=
  let v := if digit r then r - 48 else if rune_range 97 r 122 then r - 87 else if rune_range 65 r 90 then r - 55 else 99 in
  if v <? base then Some v else None.
Fixpoint digits_value (base : Z) (acc : Z) (s : text) : option Z :=
  match s with
  | [] => Some acc
  | r :: s' => match digit_value base r with None => None | Some v => digits_value base (acc * base + v) s' end
  end.
Definition unsigned_value (s : text) : option Z :=
  match s with
  | [] => None
  | r :: s' =>
      if r =? 48 then
        match s' with
        | [] => Some 0
        | x :: s'' => if in_runes x [120; 88] then match s'' with [] => None | _ => digits_value 16 0 s'' end
                      else digits_value 8 0 s'
        end
      else digits_value 10 0 s
  end.
Definition parse_int64 (s : text) : option Z :=
  let (neg, s) := match s with
                  | r :: s' => if r =? 45 then (true, s') else if r =? 43 then (false, s') else (false, s)
                  | [] => (false, s)
                  end in
  match unsigned_value s with
  | None => None
  | Some n => let z := if (neg : bool) then - n else n in
              if (- 9223372036854775808 <=? z) && (z <=? 9223372036854775807) then Some z else None
  end.
(* strings.Replace(s, "¯", "-", -1) *)
Definition macron_to_minus (s : text) : text := map (fun r => if r =? r_macron then r_minus else r) s.
(* int.go:55-61 ParseInt *)
Definition ParseInt (s : text) : option Z := parse_int64 (macron_to_minus s).

Fixpoint list_eqb (a b : text) : bool :=
  match a, b with [], [] => true | x :: a', y :: b' => (x =? y) && list_eqb a' b' | _, _ => false end.

Section Elements.
  Context {A : Type}.
  Context (other_show : A -> text) (other_parse : text -> option A) (quote : text -> text).
  (* String(f) of an element, PP < 0; quote is strconv.Quote *)
  Definition eltString (e : elt A) : text :=
    match e with
    | EBool b => boolString b
    | EInt z => intString z
    | EString s => quote s
    | EOther a => other_show a
    end.
  (* tower.go:37-64 Tower.Parse; other_parse stands for the number types of the tower *)
  Definition towerParse (s : text) : option (elt A) :=
    if list_eqb s [49; 98] then Some (EBool true)
    else if list_eqb s [48; 98] then Some (EBool false)
    else match ParseInt s with
         | Some z => Some (EInt z)
         | None => match other_parse s with Some a => Some (EOther a) | None => None end
         end.
End Elements.
