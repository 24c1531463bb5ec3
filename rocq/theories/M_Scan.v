(* M_Scan.v -- model of the tokenizer: apl/scan/scan.go.

   A line of input is the list of its runes: the decoding of UTF-8 is not modelled.
   unreadRune is always called directly after a successful nextRune, so reading and
   unreading are modelled by keeping or dropping the head of the list.  The position of a
   token, used for messages only, is not modelled. *)
From Verif Require Import Base.
From Coq Require Import ZArith List Bool.
Import ListNotations.
Open Scope Z_scope.

Definition text := list Z.

(* scan.go:20-37 Type *)
Inductive ttype :=
| Endl | Symbol | Number | String | Chars | Identifier
| LeftParen | RightParen | LeftBrack | RightBrack | LeftBrace | RightBrace
| Colon | Semicolon | Self | Diamond.
Definition ttype_eq_dec : forall a b : ttype, {a = b} + {a <> b}.
Proof. decide equality. Defined.
Definition teqb (a b : ttype) : bool := if ttype_eq_dec a b then true else false.
(* scan.go:14-18 Token *)
Record token := Tok { tt : ttype; ts : text }.

(* the runes that the code names *)
Definition r_quote := 39. Definition r_dquote := 34. Definition r_tick := 96. Definition r_bslash := 92.
Definition r_slash := 47. Definition r_dot := 46. Definition r_macron := 175. Definition r_underscore := 95.
Definition r_quad := 9109. Definition r_alpha := 9082. Definition r_omega := 9077. Definition r_arrow := 8594.
Definition r_lamp := 9053. Definition r_diamond := 8900. Definition r_nabla := 8711.
Definition in_runes (r : Z) (l : list Z) : bool := existsb (Z.eqb r) l.
Definition rune_range (a r b : Z) : bool := (a <=? r) && (r <=? b).
Definition digit (r : Z) : bool := rune_range 48 r 57.

(* The tables of package unicode.  They are concrete for Latin-1 and for the blocks of
   arrows, mathematical operators and technical symbols (U+2190 to U+23FF), which contain
   neither letters nor numbers; for the other runes they are parameters. *)
Record unicode := mkUnicode { u_letter : Z -> bool; u_number : Z -> bool; u_space : Z -> bool; u_upper : Z -> bool }.
Section Unicode.
  Context (U : unicode).
  Definition technical (r : Z) : bool := rune_range 8592 r 9215.
  Definition IsLetter (r : Z) : bool :=
    if r <? 256 then rune_range 65 r 90 || rune_range 97 r 122 || in_runes r [170; 181; 186]
                     || (rune_range 192 r 255 && negb (in_runes r [215; 247]))
    else negb (technical r) && u_letter U r.
  Definition IsNumber (r : Z) : bool :=
    if r <? 256 then digit r || in_runes r [178; 179; 185; 188; 189; 190]
    else negb (technical r) && u_number U r.
  Definition IsSpace (r : Z) : bool :=
    if r <? 256 then rune_range 9 r 13 || in_runes r [32; 133; 160]
    else negb (technical r) && u_space U r.
  Definition IsUpper (r : Z) : bool :=
    if r <? 256 then rune_range 65 r 90 || (rune_range 192 r 222 && negb (r =? 215))
    else negb (technical r) && u_upper U r.
  (* scan.go:361-370 AllowedInVarname *)
  Definition AllowedInVarname (r : Z) (first : bool) : bool :=
    if first && in_runes r [r_quad; r_alpha; r_omega] then true
    else if negb first && IsNumber r then true
    else (r =? r_underscore) || IsLetter r.
End Unicode.

(* scan.go:41-48 Scanner: the registered symbols and the commands; Unquote is strconv.Unquote *)
Record scanner := mkScanner {
  s_unicode : unicode;
  s_symbols : Z -> option text;
  s_commands : text -> option (list token -> list token);
  s_unquote : text -> option text }.

Section Scan.
  Context (C : scanner).
  Local Notation U := (s_unicode C).

  (* scan.go:291-315 ScanNumber *)
  Definition number_rune (r : Z) : bool := digit r || rune_range 97 r 122 || rune_range 65 r 90 || (r =? r_dot) || (r =? r_macron).
  Fixpoint ScanNumber (s : text) : text * text :=
    match s with
    | [] => ([], [])
    | r :: s' => if number_rune r then let (w, rest) := ScanNumber s' in (r :: w, rest) else ([], s)
    end.

  (* scan.go:405-426 ReadString, backtick *)
  Definition tick_end (r : Z) : bool := IsSpace U r || in_runes r [r_tick; 125; 93; 41; r_diamond; 35; 59].
  Fixpoint readTick (s : text) : text * text :=
    match s with
    | [] => ([], [])
    | r :: s' => if tick_end r then ([], s) else let (w, rest) := readTick s' in (r :: w, rest)
    end.
  (* scan.go:427-452 ReadString, single quotes *)
  Fixpoint readQuote (s : text) : outcome (text * text) :=
    match s with
    | [] => Err
    | r :: s' =>
        if r =? r_quote then
          match s' with
          | [] => Ok ([], [])
          | q :: s'' => if q =? r_quote then let* wr := readQuote s'' in Ok (q :: fst wr, snd wr) else Ok ([], s')
          end
        else let* wr := readQuote s' in Ok (r :: fst wr, snd wr)
    end.
  (* scan.go:453-478 ReadString, double quotes; acc holds the runes that have been read,
     the latest first *)
  Fixpoint readDouble (acc : text) (quoted : bool) (s : text) : outcome (text * text) :=
    match s with
    | [] => Err
    | r :: s' =>
        let acc := r :: acc in
        if quoted && negb (r =? r_bslash) && (r =? r_dquote) then readDouble acc false s'
        else
          let quoted := if quoted && negb (r =? r_bslash) then false
                        else if r =? r_bslash then negb quoted else quoted in
          if negb quoted && (r =? r_dquote) then
            match s_unquote C (rev acc) with Some q => Ok (q, s') | None => Err end
          else readDouble acc quoted s'
    end.
  (* scan.go:388-479 ReadString *)
  Definition ReadString (s : text) : outcome (text * text) :=
    match s with
    | [] => Err
    | r :: s' =>
        if negb (in_runes r [r_tick; r_quote; r_dquote]) then Err
        else if r =? r_tick then Ok (readTick s')
        else if r =? r_quote then readQuote s'
        else readDouble [r_dquote] false s'
    end.
  (* scan.go:318-331 scanString *)
  Definition scanString (q : Z) (s : text) : outcome (token * text) :=
    let* wr := ReadString s in
    Ok (Tok (if q =? r_quote then Chars else String) (fst wr), snd wr).

  (* scan.go:333-359 scanIdentifier *)
  Fixpoint identRest (first arrow : bool) (s : text) : text * text * bool :=
    match s with
    | [] => ([], [], first)
    | r :: s' =>
        if AllowedInVarname U r first then
          let '(w, rest, _) := identRest false arrow s' in (r :: w, rest, false)
        else if (r =? r_arrow) && negb arrow then
          let '(w, rest, _) := identRest false true s' in (r :: w, rest, false)
        else ([], s, first)
    end.
  Definition scanIdentifier (s : text) : outcome (token * text) :=
    let '(w, rest, empty) := identRest true false s in
    if empty then Err else Ok (Tok Identifier w, rest).

  (* scan.go:245-266 the switch of nextToken *)
  Definition punctuation (r : Z) : option ttype :=
    if r =? 40 then Some LeftParen else if r =? 41 then Some RightParen
    else if r =? 91 then Some LeftBrack else if r =? 93 then Some RightBrack
    else if r =? 123 then Some LeftBrace else if r =? 125 then Some RightBrace
    else if r =? 58 then Some Colon else if r =? 59 then Some Semicolon
    else if r =? r_nabla then Some Self else if r =? r_diamond then Some Diamond
    else None.
  Definition blank (r : Z) : bool := in_runes r [32; 13; 9].
  (* scan.go:221-233 a number starts here; n is the following rune, if there is one *)
  Definition number_start (r : Z) (s' : text) : bool :=
    digit r || (r =? r_macron)
    || ((r =? r_dot) && match s' with [] => false | n :: _ => digit n end).
  (* scan.go:210-276 nextToken *)
  Fixpoint nextToken (s : text) : outcome (token * text) :=
    match s with
    | [] => Ok (Tok Endl [], [])
    | r :: s' =>
        if in_runes r [r_dquote; r_quote; r_tick] then scanString r s
        else if number_start r s' then let (w, rest) := ScanNumber s in Ok (Tok Number w, rest)
        else match s_symbols C r with
        | Some t => Ok (Tok Symbol t, s')
        | None =>
            if AllowedInVarname U r true then scanIdentifier s
            else match punctuation r with
            | Some ty => Ok (Tok ty [r], s')
            | None =>
                if blank r then nextToken s'
                else if r =? r_lamp then Ok (Tok Endl [], s')
                else Err
            end
        end
    end.
  (* scan.go:372-386 applyCmds *)
  Fixpoint applyCmds (t : list token) : list token :=
    match t with
    | Tok Symbol s :: (Tok Identifier c :: t') =>
        if in_runes (nth 0 s 0) [r_slash; r_bslash] && (length s =? 1)%nat then
          match s_commands C c with Some rewrite => rewrite (applyCmds t') | None => t end
        else t
    | _ => t
    end.
  (* scan.go:88-106 Scan: the loop; every token takes at least one rune *)
  Fixpoint scanLoop (fuel : nat) (s : text) : outcome (list token) :=
    match fuel with
    | O => Panic
    | Datatypes.S fuel' =>
        let* tr := nextToken s in
        match tt (fst tr) with
        | Endl => Ok []
        | _ => let* l := scanLoop fuel' (snd tr) in Ok (fst tr :: l)
        end
    end.
  Definition scanTokens (line : text) : outcome (list token) := scanLoop (Datatypes.S (length line)) line.
  Definition Scan (line : text) : outcome (list token) := let* l := scanTokens line in Ok (applyCmds l).
End Scan.
