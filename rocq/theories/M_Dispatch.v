(* How a primitive function or an operator finds the function that serves its
   arguments: the domains of apl/domain and apl/primitives, the handlers in the
   order of their registration, and the type assertions the chosen function
   makes on its arguments before it does anything else.

   Values are kept only as far as the domains look at them: dynamic type, shape,
   elements, and what ToIndex answers.  The contents of dicts, tables, channels
   and functions are not looked at by any domain. *)
From Coq Require Import String List ZArith Bool Lia.
From Verif Require Import Base M_Array.
Import ListNotations.
Open Scope Z_scope.

(* bool.go, int.go, numbers/{float,complex,time}.go; NBig: the types of big/*.go *)
Inductive numty := NBool | NInt | NFloat | NComplex | NTime | NBig.
(* array.go, bool.go, string.go, list.go, image.go, numbers/{floats,complexs,times}.go *)
Inductive akind := AMixed | AEmpty | ABool | AInt | AStr | AFloat | AComplex | ATime | AList | AImg.
(* dynamic types of functions: function.go:107 Primitive, or any other type
   with a method Call, told apart by a number *)
Inductive funty := Prim (s : string) | NonPrim (t : Z).

(* value.go:14-17.  Num t i: a value of a number type whose ToIndex returns
   (z, true) for i = Some z and (_, false) for i = None.  Obj t: a value with
   methods Keys, At and Set that is neither a Dict nor a Table (xgo.Value,
   io.Env), t tells the types apart.  Other t: a value of any other type. *)
Inductive value :=
| Num (t : numty) (i : option Z)
| Str (s : string)
| Arr (k : akind) (dims : list Z) (xs : list value)
| Dict | Table | Obj (t : Z)
| Chan
| Fun (f : funty)
| Spec (n : Z)
| AxisOf (A R : value)
| Other (t : Z).

(* reflect.TypeOf(L) == reflect.TypeOf(R) *)
Definition numty_eqb (a b : numty) : bool :=
  match a, b with
  | NBool, NBool | NInt, NInt | NFloat, NFloat | NComplex, NComplex | NTime, NTime | NBig, NBig => true
  | _, _ => false
  end.
Definition akind_eqb (a b : akind) : bool :=
  match a, b with
  | AMixed, AMixed | AEmpty, AEmpty | ABool, ABool | AInt, AInt | AStr, AStr | AFloat, AFloat
  | AComplex, AComplex | ATime, ATime | AList, AList | AImg, AImg => true
  | _, _ => false
  end.
(* the types of big/*.go are not told apart: NBig against NBig counts as one type *)
Definition same_type (a b : value) : bool :=
  match a, b with
  | Num s _, Num t _ => numty_eqb s t
  | Str _, Str _ | Dict, Dict | Table, Table | Chan, Chan | Spec _, Spec _ | AxisOf _ _, AxisOf _ _ => true
  | Arr j _ _, Arr k _ _ => akind_eqb j k
  | Obj s, Obj t | Other s, Other t => s =? t
  | Fun (Prim _), Fun (Prim _) => true
  | Fun (NonPrim s), Fun (NonPrim t) => s =? t
  | _, _ => false
  end.

(* type assertions with an ok result *)
Definition isArray (v : value) : bool := match v with Arr _ _ _ => true | _ => false end.
Definition isNumber (v : value) : bool := match v with Num _ _ => true | _ => false end.
Definition isString (v : value) : bool := match v with Str _ => true | _ => false end.
Definition isObject (v : value) : bool := match v with Dict | Table | Obj _ => true | _ => false end.
Definition isTable (v : value) : bool := match v with Table => true | _ => false end.
Definition isChannel (v : value) : bool := match v with Chan => true | _ => false end.
Definition isFunction (v : value) : bool := match v with Fun _ => true | _ => false end.
Definition isSpec (v : value) : bool := match v with Spec _ => true | _ => false end.
Definition isAxis (v : value) : bool := match v with AxisOf _ _ => true | _ => false end.
Definition isKind (k : akind) (v : value) : bool := match v with Arr j _ _ => akind_eqb k j | _ => false end.
Definition isNumType (t : numty) (v : value) : bool := match v with Num s _ => numty_eqb t s | _ => false end.

(* array.go:259-261 *)
Definition emptyArray : value := Arr AEmpty [] [].

(* ------------------------------------------------------------------ *)
(* Unify without uptyping of an array of values: uniform.go:10-138,
   numbers/register.go:61-79.  [compact]: the number system makes compact arrays
   (the default one; big/register.go:48,82 never does).  Simplified: an array
   whose type makes no compact array stays a MixedArray. *)
Definition numkind (t : numty) : option akind :=
  match t with NBool => Some ABool | NInt => Some AInt | NFloat => Some AFloat | NComplex => Some AComplex | NTime => Some ATime | NBig => None end.
Definition unifyKind (compact : bool) (xs : list value) : akind :=
  match xs with
  | [] => AMixed
  | x :: r =>
    if forallb (same_type x) r then
      match x with
      | Str _ => AStr
      | Num t _ => if compact then match numkind t with Some k => k | None => AMixed end else AMixed
      | _ => AMixed
      end
    else AMixed
  end.
Definition unified (compact : bool) (dims : list Z) (xs : list value) : value := Arr (unifyKind compact xs) dims xs.

(* ------------------------------------------------------------------ *)
(* domain/domain.go:12-15 SingleDomain: the converted value and ok *)
Definition sdom := value -> outcome (value * bool).
(* domain/domain.go:20-26 propagate; None is a nil child *)
Definition propagate (child : option sdom) (v : value) : outcome (value * bool) :=
  match child with None => Ok (v, true) | Some c => c v end.

(* a type test without conversion: domain/channel.go:15-20, object.go:15-20,
   33-38, string.go:16-24, image.go:39-43 with conv = false, functions.go:15-26
   (whose child returns the argument when it fails) *)
Definition test (p : value -> bool) (child : option sdom) : sdom :=
  fun V => if p V then propagate child V else Ok (V, false).
Definition IsChannel := test isChannel.
Definition IsObject := test isObject.
Definition IsTable := test isTable.
Definition IsString := test isString.
Definition Function := test isFunction.
Definition IsPrimitive (p : string) : sdom := test (fun v => match v with Fun (Prim s) => String.eqb s p | _ => false end) None.
(* domain/type.go:32-41 with conv = false, for the types numbers.Time and numbers.TimeArray *)
Definition IsTime := test (isNumType NTime).
Definition IsTimeArray := test (isKind ATime).

(* domain/array.go:23-38 *)
Definition arrayTo (conv compact : bool) (child : option sdom) : sdom := fun V =>
  if isArray V then propagate child V
  else if conv then propagate child (unified compact [1] [V])
  else Ok (V, false).
Definition IsArray := arrayTo false true.
Definition ToArray (compact : bool) := arrayTo true compact.

(* domain/array.go:65-111 *)
Definition maxdim (dims : list Z) : Z := fold_left (fun m n => if n >? m then n else m) dims 0.
Definition vectorTo (conv compact : bool) (child : option sdom) : sdom := fun V =>
  match V with
  | Arr _ dims xs =>
    if zlen dims =? 1 then propagate child V
    else if negb conv then Ok (V, false)
    else if zlen xs =? 0 then Ok (emptyArray, true)
    else if negb (maxdim dims =? zlen xs) then Ok (V, false)
    else propagate child (unified compact [zlen xs] xs)
  | _ => if conv then propagate child (Arr AMixed [1] [V]) else Ok (V, false)
  end.
Definition IsVector := vectorTo false true.
Definition ToVector (compact : bool) := vectorTo true compact.

(* domain/array.go:196-258; the inner tests for apl.Bool come after the test for
   apl.Number, which a Bool passes, so they are never reached *)
Definition toIdx (v : value) : option Z := match v with Num _ i => i | _ => None end.
Definition intOf (z : Z) : value := Num NInt (Some z).
Fixpoint toIdxs (xs : list value) : option (list Z) :=
  match xs with
  | [] => Some []
  | x :: r => match toIdx x, toIdxs r with Some i, Some l => Some (i :: l) | _, _ => None end
  end.
Definition ToIndexArray (child : option sdom) : sdom := fun V =>
  match V with
  | Arr AInt _ _ => propagate child V
  | Arr _ dims xs =>
    if zlen xs =? 0 then propagate child emptyArray
    else match toIdxs xs with Some l => propagate child (Arr AInt dims (map intOf l)) | None => Ok (V, false) end
  | _ => match toIdx V with Some i => propagate child (Arr AInt [1] [intOf i]) | None => Ok (V, false) end
  end.

(* domain/array.go:139-164: iav.(apl.IntArray) is not checked *)
Definition boolOf (b : Z) : value := Num NBool (Some b).
Definition ToBoolArray (child : option sdom) : sdom := fun V =>
  if isKind ABool V then propagate child V
  else
    let* r := ToIndexArray None V in
    if negb (snd r) then Ok (V, false)
    else match fst r with
         | Arr AInt dims xs =>
           if forallb (fun x => match toIdx x with Some n => (0 <=? n) && (n <=? 1) | None => false end) xs
           then propagate child (Arr ABool dims (map (fun x => boolOf (match toIdx x with Some n => n | None => 0 end)) xs))
           else Ok (V, false)
         | _ => Panic
         end.

(* domain/numeric.go:20-41 with convert = false *)
Definition IsNumber := test isNumber.
(* domain/numeric.go:63-82: a Bool or an Int is returned without asking the child *)
Definition ToIndex (child : option sdom) : sdom := fun V =>
  match V with
  | Num NBool i => Ok (intOf (match i with Some 1 => 1 | _ => 0 end), true)
  | Num NInt _ => Ok (V, true)
  | Num _ (Some z) => propagate child (intOf z)
  | _ => Ok (V, false)
  end.

(* domain/scalar.go:18-31 *)
Definition scalarTo (conv : bool) (child : option sdom) : sdom := fun V =>
  match V with
  | Arr _ _ xs =>
    if negb conv then Ok (V, false)
    else match xs with [x] => propagate child x | _ => Ok (V, false) end
  | _ => propagate child V
  end.
Definition IsScalar := scalarTo false.
Definition ToScalar := scalarTo true.

(* domain/list.go:19-29 with conv = false *)
Definition IsList := test (isKind AList).

(* domain/string.go:49-80 *)
Definition ToStringArray (child : option sdom) : sdom := fun V =>
  match V with
  | Arr AStr _ _ => propagate child V
  | Str s => propagate child (Arr AStr [1] [V])
  | Arr _ dims xs => if forallb isString xs then propagate child (Arr AStr dims xs) else Ok (V, false)
  | _ => Ok (V, false)
  end.

(* domain/domain.go:176-185, 200-212 *)
Definition Not (child : sdom) : sdom := fun V => let* r := child V in Ok (fst r, negb (snd r)).
Definition Or (c1 c2 : sdom) : sdom := fun V =>
  let* r := c1 V in
  if snd r then Ok (fst r, true) else let* r := c2 V in if snd r then Ok (fst r, true) else Ok (V, false).

(* primitives/enclose.go:47-61 *)
Definition strvec : sdom := fun V =>
  match V with
  | Arr _ dims xs => if forallb isString xs then Ok (Arr AStr [zlen xs] xs, true) else Ok (V, false)
  | _ => Ok (V, false)
  end.
(* primitives/index.go:47-52 *)
Definition indexSpec : sdom := test isSpec None.

(* apl.Domain: L is None in a monadic call *)
Definition dom := option value -> value -> outcome (option value * value * bool).

(* domain/domain.go:36-52, 60-80 *)
Definition Both (same : sdom) : dom := fun L R =>
  match L with
  | None => Ok (L, R, false)   (* not reached: always below Dyadic *)
  | Some l =>
    let* a := same l in
    if negb (snd a) then Ok (L, R, false)
    else let* b := same R in if negb (snd b) then Ok (L, R, false) else Ok (Some (fst a), fst b, true)
  end.
Definition Any (child : sdom) : dom := fun L R =>
  match L with
  | None => Ok (L, R, false)   (* not reached: always below Dyadic *)
  | Some l =>
    let* a := child l in
    if snd a then Ok (Some (fst a), R, true)
    else let* b := child R in if snd b then Ok (L, fst b, true) else Ok (L, R, false)
  end.
(* domain/domain.go:91-110 *)
Definition Split (left right : option sdom) : dom := fun L R =>
  match L with
  | None => Ok (L, R, false)   (* not reached: always below Dyadic *)
  | Some l =>
    let* a := match left with None => Ok (l, true) | Some c => c l end in
    if negb (snd a) then Ok (L, R, false)
    else let* b := match right with None => Ok (R, true) | Some c => c R end in
    if negb (snd b) then Ok (L, R, false) else Ok (Some (fst a), fst b, true)
  end.
(* domain/domain.go:128-139 *)
Definition Monadic (right : option sdom) : dom := fun L R =>
  match L with
  | Some _ => Ok (L, R, false)
  | None =>
    match right with
    | None => Ok (L, R, true)
    | Some c => let* b := c R in if snd b then Ok (None, fst b, true) else Ok (L, R, false)
    end
  end.
(* domain/domain.go:155-163 *)
Definition Dyadic (child : option dom) : dom := fun L R =>
  match L with
  | None => Ok (L, R, false)
  | Some _ => match child with None => Ok (L, R, true) | Some c => c L R end
  end.

(* primitives/array.go:22-75 *)
Definition sameShape (ls rs : list Z) : bool :=
  (* the loop of 50-60: no axis means no return *)
  match ls with [] => false | _ => if list_eq_dec Z.eq_dec ls rs then true else false end.
Definition arrays : dom := fun L R =>
  match L with
  | None => Ok (L, R, false)
  | Some l =>
    match l, R with
    | Arr kl ls xl, Arr kr rs xr =>
      if zlen xl =? 0 then Ok (Some emptyArray, R, true)
      else if zlen xr =? 0 then Ok (L, emptyArray, true)
      else if sameShape ls rs then Ok (L, R, true)
      else match xl with
           | [x] => Ok (Some x, R, true)
           | _ => match xr with [y] => Ok (L, y, true) | _ => Ok (L, R, false) end
           end
    | Arr _ _ _, _ => Ok (L, R, true)
    | _, Arr _ _ _ => Ok (L, R, true)
    | _, _ => Ok (L, R, false)
    end
  end.

(* primitives/array.go:80-107 *)
Definition arraysWithAxis (compact : bool) : dom := fun L R =>
  match L, R with
  | Some l, AxisOf A r =>
    let* al := ToArray compact None l in
    let* ar := ToArray compact None r in
    if negb (snd al && snd ar) then Ok (L, R, false)
    else let* x := ToIndexArray None A in
    if snd x then Ok (Some (fst al), AxisOf (fst x) (fst ar), true) else Ok (L, R, false)
  | _, _ => Ok (L, R, false)
  end.

(* ------------------------------------------------------------------ *)
(* What the functions behind the handlers assert about their arguments before
   anything else: Panic when an assertion without ok result fails, Err when the
   function returns an error first, Ok otherwise. *)
Definition entry := option value -> value -> outcome unit.
Definition must (b : bool) : outcome unit := if b then Ok tt else Panic.
Definition lv (L : option value) (p : value -> bool) : bool := match L with Some l => p l | None => false end.
Definition free : entry := fun _ _ => Ok tt.
(* R.(T) of a monadic function, R.(T) of any function *)
Definition needR (p : value -> bool) : entry := fun _ R => must (p R).
Definition needBoth (p q : value -> bool) : entry := fun L R => let* _ := must (lv L p) in must (q R).

(* elementary.go:112-124 calls the function on the value itself; abs
   (elementary.go:333) asserts R.(apl.Number) unless R has a method Abs, which only
   numbers have; logicalNot (boolean.go:60) asserts it at once *)
Definition arith1_entry (sym : string) : entry :=
  if (String.eqb sym "|" || String.eqb sym "~")%bool then needR isNumber else free.
(* elementary.go:149-157 calls the function on the values when they have one type;
   abs2 (elementary.go:349) and logical (boolean.go:69-70) assert L.(apl.Number).
   Simplified: that the loop for numbers (elementary.go:158-192) asserts nothing
   else about the arguments is read from the code. *)
Definition asserts2 (sym : string) : bool :=
  existsb (String.eqb sym) ["|"; "^"; "∧"; "∨"; "⍲"; "⍱"]%string.
Definition arith2_entry (sym : string) : entry := fun L R =>
  match L with
  | None => Panic   (* not reached *)
  | Some l => if (asserts2 sym && same_type l R)%bool then must (isNumber l) else Ok tt
  end.
(* array.go:113-118 *)
Definition array1_entry : entry := needR isArray.
(* array.go:149-167: an empty argument ends the function; otherwise the shape of
   the array among the two is copied, a nil array panics *)
Definition array2_entry : entry := fun L R =>
  if (lv L (isKind AEmpty) || isKind AEmpty R)%bool then Ok tt
  else must (lv L isArray || isArray R).
(* array.go:200-215 *)
Definition arrayAxis_entry : entry := fun L R =>
  match R with
  | AxisOf A r =>
    let* _ := must (isKind AInt A) in
    if (lv L (isKind AEmpty) || isKind AEmpty r)%bool then Ok tt
    else let* _ := must (lv L isArray) in must (isArray r)
  | _ => Panic
  end.
(* table.go:17-23 *)
Definition table1_entry : entry := needR isObject.
(* table.go:60-76: a table with an object that is none is an error *)
Definition tableBoth_entry : entry := fun L R =>
  let* _ := must (lv L isObject) in
  if (lv L isTable && negb (isTable R))%bool then Err else must (isObject R).
(* table.go:145-160 *)
Definition tableAny_entry : entry := fun L R => if lv L isObject then Ok tt else must (isObject R).
(* elementary.go:514-528 *)
Definition roundTime_entry : entry := fun L R =>
  let* _ := must (lv L isString) in must (isKind ATime R || isNumType NTime R).

(* primitives/axis.go:12-34, operators/axis.go:33-55: the argument without its
   axis and the axis as integers (without the index origin) *)
Definition splitAxis (R : value) : outcome (value * option (list Z)) :=
  match R with
  | AxisOf A r =>
    if isKind AEmpty A then Ok (r, None)
    else
      let* x := ToIndexArray None A in
      if negb (snd x) then Err
      else match fst x with
           | Arr AInt dims xs => if negb (zlen dims =? 1) then Err else Ok (r, toIdxs xs)
           | _ => Panic
           end
  | _ => Ok (R, None)
  end.
(* reverse.go:50-61, 104-112: the axis must be one integer *)
Definition oneAxis (R : value) : outcome value :=
  if isAxis R then
    let* p := splitAxis R in
    match snd p with Some [_] => Ok (fst p) | _ => Err end
  else Ok R.
(* reverse.go:50-68 *)
Definition reverse_entry : entry := fun _ R => let* _ := oneAxis R in Ok tt.
(* reverse.go:103-123: L is asserted only for an array R *)
Definition rotate_entry : entry := fun L R =>
  let* r := oneAxis R in
  if isArray r then must (lv L (isKind AInt)) else Ok tt.
(* take.go:76-88 *)
Definition takedrop_entry : entry := fun L R =>
  if lv L (isKind AEmpty) then Ok tt
  else let* _ := splitAxis R in must (lv L (isKind AInt)).
(* comma.go:40-55, 79-84: an axis that is no vector of integers is tried again as a fraction *)
Definition ravel_entry : entry := fun _ R =>
  match splitAxis R with Panic => Panic | _ => Ok tt end.
(* comma.go:405-413: rs[1:] of the shape *)
Definition table_entry : entry := fun _ R =>
  match R with Arr _ [] _ => Panic | _ => Ok tt end.
(* dict.go:27-36 *)
Definition keys_entry : entry := fun _ R => let* _ := splitAxis R in Ok tt.
(* rho.go:64-83, 86-99: size 0 returns before the assertion *)
Definition sizeOf (v : value) : Z := match v with Arr _ _ xs => zlen xs | _ => 0 end.
Definition rho2_entry : entry := fun L R =>
  let* _ := must (lv L isArray) in
  if lv L (fun l => sizeOf l =? 0) then Ok tt
  else if isObject R then Err
  else must (lv L (isKind AInt)).
Definition rhoChannel_entry : entry := fun L R =>
  let* _ := must (lv L isArray) in
  if lv L (fun l => sizeOf l =? 0) then Ok tt
  else let* _ := must (lv L (isKind AInt)) in must (isChannel R).
(* transpose.go:45-85 *)
Definition transpose_entry : entry := fun L R =>
  if lv L (isKind AEmpty) then (if isArray R then Err else Ok tt)
  else let* _ := must (isArray R) in
  match L with None => Ok tt | Some l => must (isKind AInt l) end.
(* find.go:18-31 *)
Definition find_entry : entry := fun L R =>
  if isKind AEmpty R then Ok tt else let* _ := must (lv L isArray) in must (isArray R).
(* domino.go:28-33 *)
Definition domino_entry : entry := fun _ R => if isKind AEmpty R then Ok tt else must (isArray R).
(* iota.go:172-199: grade (grade.go:59) asserts L.(apl.Array), a failure of grading
   is an error, R is asserted after it *)
Definition intervalindex_entry : entry := fun L R =>
  if lv L (isKind AEmpty) then Ok tt else let* _ := must (lv L isArray) in must (isArray R).
(* unique.go:48-56 *)
Definition union_entry : entry := fun L R =>
  if (lv L (isKind AEmpty) || isKind AEmpty R)%bool then Ok tt
  else let* _ := must (lv L isArray) in must (isArray R).
(* take.go:281-294: an error for a wrong rank or a non positive number comes
   between the two assertions and is not modelled *)
Definition takeChannel2_entry : entry := needBoth (isKind AInt) isChannel.
(* take.go:238-239 *)
Definition cut_entry : entry := needBoth (isKind AInt) (isKind AList).
(* io/read.go:42-59 *)
Definition exec_entry : entry := fun L R =>
  let r := match L with Some l => l | None => R end in
  let* x := ToStringArray None r in
  if negb (snd x) then Err else must (isKind AStr (fst x)).

(* ------------------------------------------------------------------ *)
(* register.go:20-31, primitives/register.go:13-28 *)
Record handler := mkH { hsym : string; hname : string; hdom : dom; hentry : entry }.

Section REGISTRY.
  Context (compact : bool).
  Notation ToArr := (ToArray compact).
  Notation ToVec := (ToVector compact).
  Local Open Scope string_scope.

  (* elementary.go:34-93; the table of elementary.go:20-31 *)
  Definition elementarySymbols : list string := ["+"; "-"; "×"; "÷"; "*"; "⍟"; "|"; "⌊"; "⌈"; "!"; "○"].
  Definition elementaryOf (e : string) : list handler :=
    [ mkH e "arith1" (Monadic (Some (IsScalar None))) (arith1_entry e);
      mkH e "array1" (Monadic (Some (IsArray None))) array1_entry;
      mkH e "table1" (Monadic (Some (Or (IsObject None) (IsTable None)))) table1_entry;
      mkH e "channel1" (Monadic (Some (IsChannel None))) (needR isChannel);
      mkH e "arith2" (Dyadic (Some (Split (Some (IsScalar None)) (Some (IsScalar None))))) (arith2_entry e);
      mkH e "array2" arrays array2_entry;
      mkH e "arrayAxis" (arraysWithAxis compact) arrayAxis_entry;
      mkH e "tableAny" (Dyadic (Some (Any (Or (IsTable None) (IsObject None))))) tableAny_entry;
      mkH e "tableBoth" (Dyadic (Some (Both (Or (IsTable None) (IsObject None))))) tableBoth_entry;
      mkH e "channel2" (Dyadic (Some (Split None (Some (IsChannel None))))) (needR isChannel) ].
  (* boolean.go:12-36, compare.go:13-36 *)
  Definition booleanSymbols : list string := ["^"; "∧"; "∨"; "⍲"; "⍱"].
  Definition compareSymbols : list string := ["="; "<"; ">"; "≠"; "≤"; "≥"].
  Definition scalar2Of (e : string) : list handler :=
    [ mkH e "arith2" (Dyadic (Some (Split (Some (IsScalar None)) (Some (IsScalar None))))) (arith2_entry e);
      mkH e "array2" arrays array2_entry ].

  (* all register calls of primitives/*.go in the order in which Go runs the init
     functions of a package: by file name, then by position *)
  Definition primitives : list handler :=
    (* boolean.go:24-55 *)
    flat_map scalar2Of booleanSymbols ++
    [ mkH "~" "not" (Monadic (Some (IsScalar None))) (arith1_entry "~");
      mkH "~" "notArray" (Monadic (Some (IsArray None))) array1_entry;
      mkH "~" "without" (Dyadic (Some (Split (Some (ToVec None)) (Some (ToVec None))))) free;
    (* comma.go:12-42 *)
      mkH "," "ravel" (Monadic None) ravel_entry;
      mkH "∊" "enlist" (Monadic None) free;
      mkH "," "catenate" (Dyadic None) free;
      mkH "⍪" "catenateFirst" (Dyadic None) free;
      mkH "⍪" "table" (Monadic None) table_entry ] ++
    (* compare.go:23-56 *)
    flat_map scalar2Of compareSymbols ++
    [ mkH "<" "channelSource" (Monadic None) free;
      mkH "<" "channelCopy" (Dyadic (Some (Split (Some (IsChannel None)) (Some (IsChannel None))))) (needBoth isChannel isChannel);
      mkH "<" "channelDelay" (Dyadic (Some (Split (Some (IsTime None)) (Some (IsChannel None))))) (needBoth (isNumType NTime) isChannel);
    (* decode.go:12-23 *)
      mkH "⊥" "decode" (Dyadic (Some (Split (Some (ToArr None)) (Some (ToArr None))))) (needBoth isArray isArray);
      mkH "⊤" "encode" (Dyadic None) free;
    (* dict.go:12-23 *)
      mkH "#" "keys" (Monadic None) keys_entry;
      mkH "#" "dict" (Dyadic None) free;
    (* domino.go:12-23 *)
      mkH "⌹" "domino" (Monadic (Some (ToArr None))) domino_entry;
      mkH "⌹" "domino2" (Dyadic (Some (Split (Some (ToArr None)) (Some (ToArr None))))) (needBoth isArray isArray) ] ++
    (* elementary.go:33-108 *)
    flat_map elementaryOf elementarySymbols ++
    [ mkH "⌊" "roundTime" (Dyadic (Some (Split (Some (IsString None)) (Some (Or (IsTime None) (IsTimeArray None)))))) roundTime_entry;
    (* enclose.go:11-40 *)
      mkH "⊂" "strcat" (Monadic (Some strvec)) (needR (isKind AStr));
      mkH "⊂" "strjoin" (Dyadic (Some (Split (Some (IsString None)) (Some strvec)))) (fun L R => let* _ := must (isKind AStr R) in must (lv L isString));
      mkH "⊃" "runesplit" (Monadic (Some (IsString None))) (needR isString);
      mkH "⊃" "first" (Monadic (Some (IsList None))) (needR (isKind AList));
      mkH "⊃" "strsplit" (Dyadic (Some (Split (Some (IsString None)) (Some (IsString None))))) (needBoth isString isString);
    (* find.go:9-14 *)
      mkH "⍷" "find" (Dyadic (Some (Split (Some (ToArr None)) (Some (ToArr None))))) find_entry;
    (* format.go:14-46 *)
      mkH "⍕" "format1" (Monadic None) free;
      mkH "⍕" "format" (Dyadic None) free;
      mkH "⍕" "formatTable" (Dyadic (Some (Split (Some (IsObject None)) (Some (IsTable None))))) (fun L R => let* _ := must (isTable R) in must (lv L isObject));
      mkH "⍎" "execute" (Monadic (Some (IsString None))) (needR isString);
      mkH "⍎" "parseData" (Dyadic (Some (Split None (Some (IsString None))))) (needR isString);
    (* grade.go:13-36; 59: R.(apl.Array); 176: indexof *)
      mkH "⍋" "gradeUp" (Monadic (Some (IsArray None))) (needR isArray);
      mkH "⍒" "gradeDown" (Monadic (Some (IsArray None))) (needR isArray);
      mkH "⍋" "gradeUp2" (Dyadic (Some (Split (Some (IsVector None)) (Some (IsArray None))))) (needBoth isArray isArray);
      mkH "⍒" "gradeDown2" (Dyadic (Some (Split (Some (IsVector None)) (Some (IsArray None))))) (needBoth isArray isArray);
    (* index.go:14-41 *)
      mkH "⌷" "index" (Dyadic (Some (Split (Some indexSpec) (Some (ToArr None))))) (needBoth isSpec isArray);
      mkH "⌷" "listIndex" (Dyadic (Some (Split (Some indexSpec) (Some (IsList None))))) (fun L R => let* _ := must (isKind AList R) in must (lv L isSpec));
      mkH "⌷" "objIndex" (Dyadic (Some (Split (Some indexSpec) (Some (IsObject None))))) (fun L R => let* _ := must (isObject R) in must (lv L isSpec));
      mkH "⌷" "tableIndex" (Dyadic (Some (Split (Some indexSpec) (Some (IsTable None))))) (fun L R => let* _ := must (isTable R) in must (lv L isSpec));
    (* iota.go:11-40 *)
      mkH "⍳" "interval" (Monadic (Some (ToScalar (Some (ToIndex None))))) (needR (isNumType NInt));
      mkH "⍳" "indexof" (Dyadic (Some (Split (Some (ToVec None)) (Some (ToArr None))))) (needBoth isArray isArray);
      mkH "∊" "membership" (Dyadic None) free;
      mkH "⍸" "where" (Monadic (Some (ToBoolArray None))) (needR (isKind ABool));
      mkH "⍸" "intervalindex" (Dyadic (Some (Split (Some (IsVector None)) (Some (IsArray None))))) intervalindex_entry;
    (* match.go:11-35 *)
      mkH "≡" "depth" (Monadic None) free;
      mkH "≢" "tally" (Monadic None) free;
      mkH "≡" "match" (Dyadic None) free;
      mkH "≢" "notmatch" (Dyadic None) free;
    (* query.go:13-24 *)
      mkH "?" "roll" (Monadic None) free;
      mkH "?" "deal" (Dyadic (Some (Split (Some (ToScalar (Some (ToIndex None)))) (Some (ToScalar (Some (ToIndex None))))))) (needBoth (isNumType NInt) (isNumType NInt));
    (* reverse.go:11-40 *)
      mkH "⌽" "revLast" (Monadic None) reverse_entry;
      mkH "⊖" "revFirst" (Monadic None) reverse_entry;
      mkH "⌽" "rotLast" (Dyadic (Some (Split (Some (ToIndexArray None)) None))) rotate_entry;
      mkH "⊖" "rotFirst" (Dyadic (Some (Split (Some (ToIndexArray None)) None))) rotate_entry;
    (* rho.go:11-29 *)
      mkH "⍴" "rho1" (Monadic None) free;
      mkH "⍴" "rho2" (Dyadic (Some (Split (Some (ToVec (Some (ToIndexArray None)))) (Some (ToArr None))))) rho2_entry;
      mkH "⍴" "rhoChannel" (Dyadic (Some (Split (Some (ToVec (Some (ToIndexArray None)))) (Some (IsChannel None))))) rhoChannel_entry;
    (* tack.go:9-32 *)
      mkH "⊣" "same" (Monadic None) free;
      mkH "⊢" "same" (Monadic None) free;
      mkH "⊣" "left" (Dyadic None) free;
      mkH "⊢" "right" (Dyadic None) free;
    (* take.go:13-56 *)
      mkH "↑" "take" (Dyadic (Some (Split (Some (ToIndexArray None)) None))) takedrop_entry;
      mkH "↑" "takeChannel2" (Dyadic (Some (Split (Some (ToIndexArray None)) (Some (IsChannel None))))) takeChannel2_entry;
      mkH "↑" "takeChannel1" (Monadic (Some (IsChannel None))) (needR isChannel);
      mkH "↓" "drop" (Dyadic (Some (Split (Some (ToIndexArray None)) None))) takedrop_entry;
      mkH "↓" "sendChannel" (Dyadic (Some (Split (Some (IsChannel None)) None))) (fun L R => must (lv L isChannel));
      mkH "↓" "closeChannel" (Monadic (Some (IsChannel None))) (needR isChannel);
      mkH "↓" "cut" (Dyadic (Some (Split (Some (ToIndexArray None)) (Some (IsList None))))) cut_entry;
    (* transpose.go:11-43 *)
      mkH "⍉" "transpose1" (Monadic (Some (IsArray None))) transpose_entry;
      mkH "⍉" "transposeObject" (Monadic (Some (IsObject None))) (needR isObject);
      mkH "⍉" "transposeTable" (Monadic (Some (IsTable None))) (needR isTable);
      mkH "⍉" "transposeScalar" (Dyadic (Some (Split (Some (IsArray None)) (Some (IsNumber None))))) transpose_entry;
      mkH "⍉" "transpose2" (Dyadic (Some (Split (Some (ToIndexArray None)) (Some (IsArray None))))) transpose_entry;
    (* type.go:12-29 *)
      mkH "⌶" "typeof" (Monadic None) free;
      mkH "⌶" "convert" (Dyadic None) free;
      mkH "⌶" "convert2" (Dyadic (Some (Split (Some (IsString None)) None))) (fun L R => must (lv L isString));
    (* unique.go:9-20 *)
      mkH "∪" "unique" (Monadic (Some (ToVec None))) (needR isArray);
      mkH "∪" "union" (Dyadic (Some (Split (Some (ToVec None)) (Some (ToVec None))))) union_entry ].

  (* io/register.go:36-55, which the program iv registers after the primitives *)
  Definition ioHandlers : list handler :=
    [ mkH "<" "readFile" (Monadic (Some (IsString None))) free;
      mkH "<" "readFd" (Monadic (Some (ToIndex None))) free;
      mkH "!" "exec1" (Monadic (Some (ToStringArray None))) exec_entry;
      mkH "!" "exec2" (Dyadic (Some (Split (Some (ToStringArray None)) None))) exec_entry ].

  (* the handlers of one interpreter, in the order of registration *)
  Definition registered (io : bool) : list handler := primitives ++ (if io then ioHandlers else []).

  (* register.go:15-18 puts a handler before those already registered for the symbol *)
  Definition handlesOf (hs : list handler) (sym : string) : list handler :=
    fold_left (fun acc h => if String.eqb (hsym h) sym then h :: acc else acc) hs [].

  (* function.go:125-139: the first handler whose domain accepts, with the converted arguments *)
  Fixpoint firstOf (hs : list handler) (L : option value) (R : value) : outcome (handler * option value * value) :=
    match hs with
    | [] => Err
    | h :: rest =>
      let* r := hdom h L R in
      match r with
      | (l, x, true) => Ok (h, l, x)
      | (_, _, false) => firstOf rest L R
      end
    end.
  Definition dispatch (io : bool) (sym : string) (L : option value) (R : value) : outcome (handler * option value * value) :=
    firstOf (handlesOf (registered io) sym) L R.

  (* the call up to the assertions of the function: function.go:125-139 *)
  Definition enter (io : bool) (sym : string) (L : option value) (R : value) : outcome string :=
    let* p := dispatch io sym L R in
    let '(h, l, x) := p in
    let* _ := hentry h l x in
    Ok (hname h).
End REGISTRY.

(* ------------------------------------------------------------------ *)
(* Operators: domain/operator.go:13-22, 36-45, operators/*.go, op.go:67-122.
   RO is None for a monadic operator. *)
Definition odom := value -> option value -> outcome (value * option value * bool).
Definition MonadicOp (left : option sdom) : odom := fun LO RO =>
  match left with
  | None => Ok (LO, RO, true)
  | Some c => let* a := c LO in if snd a then Ok (fst a, RO, true) else Ok (LO, RO, false)
  end.
Definition DyadicOp (child : option (option sdom * option sdom)) : odom := fun LO RO =>
  match child, RO with
  | None, _ => Ok (LO, RO, true)
  | Some (l, r), Some g =>
    let* a := match l with None => Ok (LO, true) | Some c => c LO end in
    if negb (snd a) then Ok (LO, RO, false)
    else let* b := match r with None => Ok (g, true) | Some c => c g end in
    if negb (snd b) then Ok (LO, RO, false) else Ok (fst a, Some (fst b), true)
  | Some _, None => Ok (LO, RO, false)   (* not reached: a dyadic operator has a right operand *)
  end.
(* what the derived function asserts about the operands, given its arguments *)
Definition oentry := value -> option value -> option value -> value -> outcome unit.
Record ohandler := mkO { osym : string; oname : string; odomain : odom; oentry_ : oentry }.
Definition ofree : oentry := fun _ _ _ _ => Ok tt.
Definition oFunction : oentry := fun LO _ _ _ => must (isFunction LO).
(* dot.go:25-38 *)
Definition oBothFunctions : oentry := fun LO RO _ _ => let* _ := must (isFunction LO) in must (lv RO isFunction).
(* reduce.go:367-385, 560-562: L.(apl.IntArray); a left argument is an error first *)
Definition oReplicate : oentry := fun LO _ L _ => match L with Some _ => Err | None => must (isKind AInt LO) end.
(* reduce.go:455-470: an empty left operand ends the function *)
Definition oExpand : oentry := fun LO _ L _ => match L with Some _ => Err | None => if isKind AEmpty LO then Ok tt else must (isKind AInt LO) end.
(* rank.go:24-33 *)
Definition oRank : oentry := fun LO RO _ _ => let* _ := must (isFunction LO) in must (lv RO (isKind AInt)).
(* stencil.go:20-36 *)
Definition oStencil : oentry := fun LO RO L _ =>
  match L with Some _ => Err | None => let* _ := must (isFunction LO) in if lv RO (isKind AEmpty) then Ok tt else must (lv RO (isKind AInt)) end.
(* at.go:20-70: a right operand that is no function is converted to an index array *)
Definition oAt : oentry := fun _ RO _ _ =>
  match RO with
  | Some (Fun _) => Ok tt
  | Some g =>
    let ag := if isArray g then g else Arr AMixed [1] [g] in
    let* v := ToIndexArray None ag in
    if negb (snd v) then Err else must (isKind AInt (fst v))
  | None => Err   (* not reached: a dyadic operator has a right operand *)
  end.
(* each.go:24-26, commute.go:17-19, power.go:22-24, reduce.go:96-110, 240-246 *)
Local Open Scope string_scope.
Definition operators : list ohandler :=
  [ (* assign.go:12-17 *)
    mkO "←" "assign" (MonadicOp None) ofree;
    (* at.go:11-16 *)
    mkO "@" "at" (DyadicOp None) oAt;
    (* axis.go:11-17 *)
    mkO "⍂" "axis" (DyadicOp None) ofree;
    (* commute.go:9-14 *)
    mkO "⍨" "commute" (MonadicOp (Some (Function None))) oFunction;
    (* dot.go:12-23 *)
    mkO "." "innerproduct" (DyadicOp (Some (Some (Function None), Some (Function None)))) oBothFunctions;
    mkO "." "scalarproduct" (DyadicOp (Some (Some (IsPrimitive "+"), Some (IsPrimitive "×")))) oBothFunctions;
    (* each.go:11-22; channelEach: chanops, the operand is not asserted *)
    mkO "¨" "each" (MonadicOp (Some (Function None))) oFunction;
    mkO "¨" "channelEach" (MonadicOp (Some (IsPrimitive "<"))) ofree;
    (* jot.go:11-16 *)
    mkO "∘" "compose" (DyadicOp (Some (None, None))) ofree;
    (* power.go:11-16 *)
    mkO "⍣" "power" (DyadicOp (Some (Some (Function None), None))) oFunction;
    (* rank.go:12-17 *)
    mkO "⍤" "rank" (DyadicOp (Some (Some (Function None), Some (ToIndexArray None)))) oRank;
    (* reduce.go:11-64 *)
    mkO "/" "reduceLast" (MonadicOp (Some (Function None))) oFunction;
    mkO "⌿" "reduceFirst" (MonadicOp (Some (Function None))) oFunction;
    mkO "\" "scanLast" (MonadicOp (Some (Function None))) oFunction;
    mkO "⍀" "scanFirst" (MonadicOp (Some (Function None))) oFunction;
    mkO "/" "replicateLast" (MonadicOp (Some (ToIndexArray None))) oReplicate;
    mkO "⌿" "replicateFirst" (MonadicOp (Some (ToIndexArray None))) oReplicate;
    mkO "\" "expandLast" (MonadicOp (Some (ToIndexArray None))) oExpand;
    mkO "⍀" "expandFirst" (MonadicOp (Some (ToIndexArray None))) oExpand;
    (* stencil.go:11-16 *)
    mkO "⌺" "stencil" (DyadicOp (Some (Some (Function None), Some (ToIndexArray None)))) oStencil ].
(* register.go:21-36: as for primitives *)
Definition operatorsOf (sym : string) : list ohandler :=
  fold_left (fun acc h => if String.eqb (osym h) sym then h :: acc else acc) operators [].
Fixpoint firstOp (hs : list ohandler) (LO : value) (RO : option value) : outcome (ohandler * value * option value) :=
  match hs with
  | [] => Err
  | h :: rest =>
    let* r := odomain h LO RO in
    match r with
    | (l, x, true) => Ok (h, l, x)
    | (_, _, false) => firstOp rest LO RO
    end
  end.
(* op.go:115-121 *)
Definition enterOp (sym : string) (LO : value) (RO : option value) (L : option value) (R : value) : outcome string :=
  let* p := firstOp (operatorsOf sym) LO RO in
  let '(h, l, x) := p in
  let* _ := oentry_ h l x L R in
  Ok (oname h).
