(* M_Parse.v -- model of the parser, apl/parse.go, of the line buffer, apl/multiline.go,
   and of the names of variables, apl/var.go:212-229.

   The tokens of a parser are kept in the reverse order, because they are pulled from the
   right.  The stack is kept with its left end first.  Nil expressions, which are the
   result of an empty statement, are None.  A failing type assertion is a Panic.  The Go
   code shares and overwrites the operands of a derived function through a pointer; every
   derived function is reachable from one stack item only, so it is a value here. *)
From Verif Require Import Base M_Scan M_Syntax.
From Coq Require Import String Ascii List Bool ZArith.
Import ListNotations.
Open Scope Z_scope.
Open Scope list_scope.

(* the bytes of a rune and of a text *)
Definition byte (z : Z) : ascii := ascii_of_N (Z.to_N z).
Definition utf8_rune (r : Z) (s : string) : string :=
  if r <? 128 then String (byte r) s
  else if r <? 2048 then String (byte (192 + r / 64)) (String (byte (128 + r mod 64)) s)
  else if r <? 65536 then String (byte (224 + r / 4096)) (String (byte (128 + (r / 64) mod 64)) (String (byte (128 + r mod 64)) s))
  else String (byte (240 + r / 262144)) (String (byte (128 + (r / 4096) mod 64)) (String (byte (128 + (r / 64) mod 64)) (String (byte (128 + r mod 64)) s))).
Fixpoint utf8 (t : text) : string := match t with [] => EmptyString | r :: t' => utf8_rune r (utf8 t') end.

(* var.go:212-229 isVarname; strings.Index of the first arrow *)
Fixpoint split_arrow (t : text) : option (text * text) :=
  match t with
  | [] => None
  | r :: t' => if r =? r_arrow then Some ([], t')
               else match split_arrow t' with Some (p, x) => Some (r :: p, x) | None => None end
  end.
Section Names.
  Context (U : unicode).
  Fixpoint all_allowed (first : bool) (t : text) : bool :=
    match t with [] => true | r :: t' => AllowedInVarname U r first && all_allowed false t' end.
  Definition upper (t : text) : bool :=
    match t with [] => false | r :: _ => IsUpper U r || in_runes r [r_quad; r_alpha; r_omega] end.
  (* Apart from its result isVarname only depends on the name; the name keeps its classification. *)
  Definition name_of (t : text) : name :=
    match t with
    | [] => Illegal ""
    | _ =>
        match split_arrow t with
        | Some (p, x) => if all_allowed true x then Pkg (utf8 p) (utf8 x) (negb (upper x)) else Illegal (utf8 t)
        | None =>
            if negb (all_allowed true t) then Illegal (utf8 t)
            else if list_eq_dec Z.eq_dec t [r_alpha] then Alpha
            else if list_eq_dec Z.eq_dec t [r_omega] then Omega
            else if list_eq_dec Z.eq_dec t [r_quad] then Quad
            else if list_eq_dec Z.eq_dec t [r_quad; 73; 79] then QIO
            else if list_eq_dec Z.eq_dec t [r_quad; 80; 80] then QPP
            else if upper t then Num (utf8 t) else Fun (utf8 t)
        end
    end.
End Names.

(* parse.go:18-23 class *)
Inductive class := noun | verb | adverb | conjunction.
Definition class_eqb (a b : class) : bool :=
  match a, b with noun, noun | verb, verb | adverb, adverb | conjunction, conjunction => true | _, _ => false end.
Definition is_op (c : class) : bool := match c with adverb | conjunction => true | _ => false end.

Section Parser.
  Context {D : Type}.
  Local Notation expr := (expr D).
  Local Notation func := (func D).
  Local Notation guard := (guard D).

  (* parse.go:27-30 item *)
  Record item := mkItem { ie : expr; ic : class }.

  (* what the parser asks the interpreter *)
  Record grammar := mkGrammar {
    g_primitive : string -> bool;            (* a.primitives *)
    g_operator : string -> option bool;      (* a.operators: is the operator dyadic *)
    g_unicode : unicode;
    g_number : text -> option D;             (* a.Tower.Parse *)
    g_string : text -> D;                    (* String *)
    g_empty : D }.                           (* EmptyArray *)
  Context (G : grammar).
  Local Notation nameOf := (name_of (g_unicode G)).

  (* -------- the stack; its left end is the head of the list -------- *)
  Definition stack := list item.
  Definition nthc (st : stack) (i : nat) : option class := option_map ic (nth_error st i).
  Definition is_idx (e : expr) : option (list expr) := match e with EIdx l => Some l | _ => None end.
  (* the type assertion e.(Function): the functions of the grammar, and *function, which
     embeds a Function and so has its methods *)
  Definition asFunction (e : expr) : option func :=
    match e with EFn f => Some f | EApp f _ _ _ => Some f | _ => None end.
  Definition index_prim : string := "⌷".
  Definition axis_op : string := "⍂".

  (* parse.go:475-531 resolveBrackets *)
  Definition resolveBrackets (st : stack) : outcome stack :=
    match st with
    | l :: (mkItem (EIdx spec) c1 :: st') =>
        match ie l, ic l with
        | EFn (FPrim p), _ =>
            match spec with
            | [a] => Ok (mkItem (EFn (FDer axis_op (Some (ie l)) (Some a))) verb :: st')
            | _ => Err
            end
        | EFn (FDer _ _ _), _ =>
            match spec with
            | [a] => Ok (l :: mkItem (EFn (FDer axis_op None None)) conjunction :: mkItem a noun :: st')
            | _ => Err
            end
        | _, noun => Ok (mkItem (EApp (FPrim index_prim) (Some (EIdx spec)) (ie l) false) noun :: st')
        | _, _ => Err
        end
    | _ => Ok st
    end.

  (* parse.go:571-597 mopReduce; n bounds the number of reductions *)
  Fixpoint mopReduce (n i : nat) (st : stack) : outcome (stack * bool) :=
    match n with
    | O => Panic
    | S n' =>
        match nth_error st i, nth_error st (S i) with
        | Some a, Some (mkItem e adverb) =>
            if match nthc st 0 with Some c => is_op c | None => false end
               || (Nat.eqb i 1 && match nthc st 1 with Some c => is_op c | None => false end)
            then Ok (st, false)
            else match e with
                 | EFn (FDer op lo ro) =>
                     let* r := mopReduce n' (S i) (firstn i st ++ mkItem (EFn (FDer op (Some (ie a)) ro)) verb :: skipn (2 + i) st) in
                     Ok (fst r, true)
                 | _ => Panic
                 end
        | _, _ => Ok (st, false)
        end
    end.
  (* parse.go:599-626 dopReduce *)
  Definition dopReduce (i : nat) (st : stack) : outcome (stack * bool) :=
    match nth_error st i, nth_error st (S i), nth_error st (2 + i) with
    | Some a, Some (mkItem e conjunction), Some b =>
        if match nthc st 0 with Some c => is_op c | None => false end
           || (Nat.eqb i 1 && match nthc st 1 with Some c => is_op c | None => false end)
        then Ok (st, false)
        else match e with
             | EFn (FDer op lo ro) => Ok (firstn i st ++ mkItem (EFn (FDer op (Some (ie a)) (Some (ie b)))) verb :: skipn (3 + i) st, true)
             | _ => Panic
             end
    | _, _, _ => Ok (st, false)
    end.
  (* parse.go:533-569 resolveOperators *)
  Fixpoint resolveOperators (n : nat) (last : bool) (st : stack) : outcome stack :=
    match n with
    | O => Panic
    | S n' =>
        let* r1 := if last then mopReduce (S (length st)) 0 st else Ok (st, false) in
        let* r2 := mopReduce (S (length st)) 1 (fst r1) in
        let* r3 := if last then dopReduce 0 (fst r2) else Ok (fst r2, false) in
        let* r4 := dopReduce 1 (fst r3) in
        if snd r1 || snd r2 || snd r3 || snd r4 then resolveOperators n' last (fst r4) else Ok (fst r4)
    end.

  (* parse.go:655-682 reducefA; the stack is reversed, so that its right end is first *)
  Definition reducefA (last : bool) (rs : stack) : outcome (option stack) :=
    match rs with
    | r :: f :: rest =>
        let x := match rest with i :: _ => ic i | [] => if last then verb else conjunction end in
        if class_eqb (ic r) noun && class_eqb (ic f) verb && (class_eqb x verb || class_eqb x adverb) then
          match asFunction (ie f) with
          | Some fn => Ok (Some (mkItem (EApp fn None (ie r) false) noun :: rest))
          | None => Panic
          end
        else Ok None
    | _ => Ok None
    end.
  (* parse.go:684-725 reduceAfA *)
  Definition reduceAfA (last : bool) (rs : stack) : outcome (option stack) :=
    match rs with
    | r :: f :: l :: rest =>
        let go := match rest with
                  | y :: (x :: _) => last || class_eqb (ic y) verb || (class_eqb (ic y) noun && negb (class_eqb (ic x) conjunction))
                  | _ => last
                  end in
        if go && class_eqb (ic l) noun && class_eqb (ic f) verb && class_eqb (ic r) noun then
          match asFunction (ie f) with
          | Some fn => Ok (Some (mkItem (EApp fn (Some (ie l)) (ie r) false) noun :: rest))
          | None => Panic
          end
        else Ok None
    | _ => Ok None
    end.
  (* parse.go:628-653 resolveArrays *)
  Fixpoint resolveArrays (n : nat) (last : bool) (rs : stack) : outcome stack :=
    match n with
    | O => Panic
    | S n' =>
        let* f := reducefA last rs in
        let rs1 := match f with Some s => s | None => rs end in
        let* a := reduceAfA last rs1 in
        let rs2 := match a with Some s => s | None => rs1 end in
        match f, a with None, None => Ok rs | _, _ => resolveArrays n' last rs2 end
    end.
  (* parse.go:758-782 reduceff *)
  Definition reduceff (last : bool) (rs : stack) : option stack :=
    match rs with
    | r0 :: r1 :: rest =>
        let c := match rest with i :: _ => negb (class_eqb (ic i) conjunction) | [] => last end in
        if class_eqb (ic r0) verb && class_eqb (ic r1) verb && c then
          Some (mkItem (EFn (FTrain (match ie r0 with EFn (FTrain t) => ie r1 :: t | _ => [ie r1; ie r0] end))) verb :: rest)
        else None
    | _ => None
    end.
  Fixpoint reduceffs (n : nat) (last : bool) (rs : stack) : outcome stack :=
    match n with
    | O => Panic
    | S n' => match reduceff last rs with Some rs' => reduceffs n' last rs' | None => Ok rs end
    end.
  (* parse.go:727-756 resolveFunctions *)
  Definition resolveFunctions (last : bool) (rs : stack) : outcome stack :=
    let* rs := reduceffs (S (length rs)) last rs in
    match rs with
    | [mkItem (EFn (FTrain t)) c; mkItem a noun] =>
        if last && Nat.even (length t) then Ok [mkItem (EFn (FTrain (a :: t))) verb] else Ok rs
    | _ => Ok rs
    end.
  (* parse.go:454-473 reduce *)
  Definition reduce (last : bool) (st : stack) : outcome stack :=
    match st with
    | mkItem (EIdx _) _ :: _ => Ok st
    | _ =>
        let* st := resolveBrackets st in
        let* st := resolveOperators (S (length st)) last st in
        let* rs := resolveArrays (S (length st)) last (rev st) in
        let* rs := resolveFunctions last rs in
        if last && (1 <? Z.of_nat (length rs)) then Err else Ok (rev rs)
    end.
  (* parse.go:871-895 linkFuncAssign *)
  Definition linkFuncAssign (st : stack) : stack :=
    match st with
    | [mkItem (EFn (FTrain [EFn (FDer op lo ro); g])) c] =>
        if String.eqb op assign_op then [mkItem (EApp (FDer op lo ro) None g false) verb] else st
    | _ => st
    end.
  (* parse.go:784-797 specialJot *)
  Definition specialJot (i : item) (st : stack) : item :=
    match st with
    | mkItem (EFn (FDer op _ _)) _ :: _ => if String.eqb op "." then mkItem (EFn (FPrim "∘")) verb else i
    | _ => i
    end.

  (* -------- the tokens -------- *)
  (* parse.go:382-452 collectArray: the loop; ar is in the normal order *)
  Fixpoint collect (rt : list token) (ar : list expr) : outcome (list expr * list token) :=
    match rt with
    | [] => Ok (ar, [])
    | t :: rt' =>
        match tt t with
        | Number => match g_number G (ts t) with Some n => collect rt' (EConst n :: ar) | None => Err end
        | M_Scan.String => collect rt' (EConst (g_string G (ts t)) :: ar)
        | Chars =>
            if (negb (match ar with [] => true | _ => false end)) && (1 <? Z.of_nat (length (ts t))) then Err
            else collect rt' (map (fun r => EConst (g_string G [r])) (ts t) ++ ar)
        | Identifier =>
            match isVarname (nameOf (ts t)) with
            | (true, false) => collect rt' (EVar (nameOf (ts t)) :: ar)
            | _ => Ok (ar, rt)
            end
        | _ => Ok (ar, rt)
        end
    end.
  Definition collectArray (rt : list token) : outcome (expr * list token) :=
    let* r := collect rt [] in
    Ok (match fst r with [] => EConst (g_empty G) | [e] => e | ar => EArray ar end, snd r).

  (* parse.go:228-246 subStatement: pull until the matching left token *)
  Fixpoint pullMatching (left right : ttype) (l : nat) (rt : list token) : option (list token * list token) :=
    match rt with
    | [] => None
    | t :: rt' =>
        if teqb (tt t) Endl then None
        else if teqb (tt t) right then
          match pullMatching left right (S l) rt' with Some (i, r) => Some (t :: i, r) | None => None end
        else if teqb (tt t) left then
          match l with
          | O | S O => Some ([], rt')
          | S l' => match pullMatching left right l' rt' with Some (i, r) => Some (t :: i, r) | None => None end
          end
        else match pullMatching left right l rt' with Some (i, r) => Some (t :: i, r) | None => None end
    end.
  (* parse.go:842-869 splitTokens *)
  Fixpoint splitTokens (at_ : ttype) (inc dec : list ttype) (lv : Z) (toks : list token) : list (list token) :=
    match toks with
    | [] => [[]]
    | t :: toks' =>
        let lv := if existsb (teqb (tt t)) inc then lv + 1 else if existsb (teqb (tt t)) dec then lv - 1 else lv in
        let l := splitTokens at_ inc dec lv toks' in
        if (lv =? 0) && teqb (tt t) at_ then [] :: l
        else match l with [] => [[t]] | p :: l' => (t :: p) :: l' end
    end.

  Definition left_of (right : ttype) : ttype :=
    match right with RightBrace => LeftBrace | RightParen => LeftParen | RightBrack => LeftBrack | _ => Endl end.

  Section Step.
    (* the parser for the statement of a shorter list of tokens, in reverse order *)
    Context (stmt : list token -> stack -> outcome (option item)).
    Definition statement (toks : list token) : outcome (option expr) :=
      let* r := stmt (rev toks) [] in Ok (option_map ie r).
    (* parse.go:282-299 parseList *)
    Definition parseList (toks : list token) : outcome item :=
      let l := removelast (splitTokens Semicolon [LeftParen] [RightParen] 0 toks) in
      let* es := mapM statement l in
      Ok (mkItem (EList es) noun).
    (* parse.go:301-323 parseBrackets *)
    Definition parseBrackets (toks : list token) : outcome item :=
      let l := splitTokens Semicolon [LeftParen; LeftBrack] [RightParen; RightBrack] 0 toks in
      let* es := mapM statement l in
      Ok (mkItem (EIdx (map (fun e => match e with Some e => e | None => EConst (g_empty G) end) es)) adverb).
    (* parse.go:356-380 guardExpr *)
    Definition guardExpr (toks : list token) : outcome (guard * option expr) :=
      let l := splitTokens Colon [LeftBrace] [RightBrace] 0 toks in
      if 3 <? zlen l then Err else
      let* es := mapM statement l in
      match es with
      | [e] => Ok (Guard None e, None)
      | [c; e] => Ok (Guard c e, None)
      | [c; e; t] => Ok (Guard c e, t)
      | _ => Ok (Guard None None, None)
      end.
    (* parse.go:330-346 the loop of parseLambda *)
    Fixpoint guards (l : list (list token)) : outcome (list guard) :=
      match l with
      | [] => Ok []
      | toks :: l' =>
          let* gt := guardExpr toks in
          match snd gt, l' with
          | Some _, _ :: _ => Err
          | Some t, [] => Ok [fst gt; Guard None (Some t)]
          | None, _ => let* b := guards l' in Ok (fst gt :: b)
          end
      end.
    Definition drop_empty_last (b : list guard) : list guard :=
      match rev b with Guard None None :: r => rev r | _ => b end.
    (* parse.go:325-354 parseLambda *)
    Definition parseLambda (toks : list token) : outcome item :=
      let* b := guards (splitTokens Diamond [LeftBrace] [RightBrace] 0 toks) in
      Ok (mkItem (EFn (FLam (drop_empty_last b))) verb).
    (* parse.go:218-280 subStatement; inner is in reverse order *)
    Definition subStatement (right : ttype) (inner : list token) : outcome item :=
      match inner with
      | [] => match right with
              | RightBrace => Ok (mkItem (EFn (FLam [])) verb)
              | RightBrack => Ok (mkItem (EIdx []) adverb)
              | _ => Err
              end
      | t :: _ =>
          match right with
          | RightParen => if teqb (tt t) Semicolon then parseList (rev inner)
                          else let* r := stmt inner [] in match r with Some i => Ok i | None => Panic end
          | RightBrack => parseBrackets (rev inner)
          | _ => parseLambda (rev inner)
          end
      end.
  End Step.

  (* parse.go:130-138: the end of the statement; the result is the rightmost item *)
  Definition finish (st : stack) : outcome (option item) :=
    match st with
    | [] => Ok None
    | _ => let* st' := reduce true st in
           match rev (linkFuncAssign st') with i :: _ => Ok (Some i) | [] => Panic end
    end.
  (* parse.go:98-216 parseStatement; n bounds the number of tokens *)
  Fixpoint parseStatement (n : nat) (rt : list token) (st : stack) : outcome (option item) :=
    match n with
    | O => Panic
    | S n' =>
        match rt with
        | [] => finish st
        | t :: rt' =>
            match tt t with
            | Endl => finish st
            | Symbol =>
                let s := utf8 (ts t) in
                if g_primitive G s then
                  let* st' := reduce false (mkItem (EFn (FPrim s)) verb :: st) in parseStatement n' rt' st'
                else match g_operator G s with
                | Some dyadic =>
                    let i := mkItem (EFn (FDer s None None)) (if dyadic then conjunction else adverb) in
                    let i := if String.eqb s "∘" then specialJot i st else i in
                    let* st' := reduce false (i :: st) in parseStatement n' rt' st'
                | None => Err
                end
            | Number | M_Scan.String | Chars =>
                let* er := collectArray rt in
                let* st' := reduce false (mkItem (fst er) noun :: st) in parseStatement n' (snd er) st'
            | Identifier =>
                match isVarname (nameOf (ts t)) with
                | (false, _) => Err
                | (true, false) =>
                    let* er := collectArray rt in
                    let* st' := reduce false (mkItem (fst er) noun :: st) in parseStatement n' (snd er) st'
                | (true, true) =>
                    let* st' := reduce false (mkItem (EFn (FVar (nameOf (ts t)))) verb :: st) in parseStatement n' rt' st'
                end
            | Self => let* st' := reduce false (mkItem (EFn FSelf) verb :: st) in parseStatement n' rt' st'
            | LeftParen | LeftBrack | LeftBrace => Err
            | RightParen | RightBrack | RightBrace =>
                match pullMatching (left_of (tt t)) (tt t) 1 rt' with
                | None => Err
                | Some (inner, rest) =>
                    let* i := subStatement (parseStatement n') (tt t) inner in
                    let* st' := reduce false (i :: st) in parseStatement n' rest st'
                end
            | Colon | Semicolon | Diamond => Err
            end
        end
    end.
  Definition parse_statement (toks : list token) : outcome (option item) := parseStatement (S (length toks)) (rev toks) [].

  (* parse.go:70-96 nextStatement: the statement and the remaining tokens *)
  Fixpoint nextStatement (b : Z) (toks : list token) : outcome (list token * list token) :=
    match toks with
    | [] => Ok ([], [])
    | t :: toks' =>
        let b := if teqb (tt t) LeftBrace then b + 1 else if teqb (tt t) RightBrace then b - 1 else b in
        if b <? 0 then Err
        else if (b =? 0) && teqb (tt t) Diamond then Ok ([], toks')
        else let* r := nextStatement b toks' in Ok (t :: fst r, snd r)
    end.
  (* parse.go:43-68 parse; a program holds a nil for an empty statement *)
  Fixpoint parseProgram (n : nat) (toks : list token) : outcome (list (option expr)) :=
    match n with
    | O => Panic
    | S n' =>
        match toks with
        | [] => Ok []
        | _ =>
            let* sr := nextStatement 0 toks in
            let* i := parse_statement (fst sr) in
            let* p := parseProgram n' (snd sr) in
            Ok (option_map ie i :: p)
        end
    end.
  Definition parse (toks : list token) : outcome (list (option expr)) :=
    let* p := parseProgram (S (length toks)) toks in
    match p with [] => Err | _ => Ok p end.

  (* -------- multiline.go -------- *)
  Context (C : scanner).
  (* multiline.go:28-33 LineBuffer *)
  Record buffer := mkBuffer { b_tokens : list token; b_level : Z }.
  Definition NewLineBuffer : buffer := mkBuffer [] 0.
  Definition diamond : token := Tok Diamond [r_diamond].
  (* multiline.go:66-76 the loop over the new tokens; None: too many } *)
  Fixpoint braces (level : Z) (toks : list token) : option Z :=
    match toks with
    | [] => Some level
    | t :: toks' =>
        if teqb (tt t) LeftBrace then braces (level + 1) toks'
        else if teqb (tt t) RightBrace then if level - 1 <? 0 then None else braces (level - 1) toks'
        else braces level toks'
    end.
  (* multiline.go:39-82 Add: the answer or an error, and the new buffer *)
  Definition AddLine (line : text) (b : buffer) : outcome bool * buffer :=
    match Scan C line with
    | Err | Panic => (Err, NewLineBuffer)
    | Ok [] => (Ok false, b)
    | Ok toks =>
        let join := match rev (b_tokens b) with [] => false | t :: _ => negb (teqb (tt t) LeftBrace) end in
        let all := b_tokens b ++ (if join then [diamond] else []) ++ toks in
        match braces (b_level b) toks with
        | None => (Err, NewLineBuffer)
        | Some lv => (Ok (lv =? 0), mkBuffer all lv)
        end
    end.
  (* multiline.go:84-89 Parse *)
  Definition Parse (b : buffer) : outcome (list (option expr)) * buffer := (parse (b_tokens b), NewLineBuffer).
  (* multiline.go:12-27 ParseLines: the lines of the text *)
  Fixpoint addLines (lines : list text) (b : buffer) : outcome (list (option expr)) :=
    match lines with
    | [] => Ok []
    | s :: lines' =>
        let (ok, b') := AddLine s b in
        let* ok := ok in
        match lines' with
        | [] => if ok then fst (Parse b') else Err
        | _ => addLines lines' b'
        end
    end.
  Fixpoint split_lines (s : text) : list text :=
    match s with
    | [] => [[]]
    | r :: s' => let l := split_lines s' in
                 if r =? 10 then [] :: l else match l with p :: l' => (r :: p) :: l' | [] => [[r]] end
    end.
  Definition ParseLines (s : text) : outcome (list (option expr)) := addLines (split_lines s) NewLineBuffer.
End Parser.
Arguments item : clear implicits. Arguments grammar : clear implicits. Arguments stack : clear implicits.
