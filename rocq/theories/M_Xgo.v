(* M_Xgo.v -- model of the Go interface: apl/xgo/convert.go, function.go and type.go.

   Modelled Go types are int, uint, float64, complex128, string, bool (which stands for the kinds
   that are not supported) and slices of these.  Structs are modelled as the receivers of fields
   and methods, but not as values of fields, arguments or results; a struct value is always a
   pointer (create.Call, type.go:154-157).  APL values are numbers, strings, arrays and the rest.
   reflect's conversion of an int to float64 and to string are parameters. *)
From Verif Require Import Base M_Array.

Section Xgo.
  Context {F Cx text : Type} (float_of : Z -> F) (rune_of : Z -> text).
  Inductive gtype := GTInt | GTUint | GTFloat | GTComplex | GTString | GTBool | GTSlice (e : gtype).
  Inductive gval := GInt (n : Z) | GUint (n : Z) | GFloat (x : F) | GComplex (x : Cx) | GString (s : text) | GBool (b : bool)
                  | GSlice (e : gtype) (l : list gval).
  Inductive aval := AInt (n : Z) | AFloat (x : F) | AComplex (x : Cx) | AStr (s : text) | ABool (b : bool)
                  | AArr (dims : list Z) (l : list aval) | AEmp | AOther.
  (* the elements of an array (Size and At); None: not an array *)
  Definition elements (v : aval) : option (list aval) := match v with AArr _ l => Some l | AEmp => Some [] | _ => None end.

  (* convert.go:20-25 the values that export themselves (int.go:49, string.go:51), if reflect can
     convert an int or a string to the type *)
  Definition self_export (v : aval) (t : gtype) : option gval :=
    match v, t with
    | AInt n, GTInt => Some (GInt n)
    | AInt n, GTUint => Some (GUint (n mod 2 ^ 64))
    | AInt n, GTFloat => Some (GFloat (float_of n))
    | AInt n, GTString => Some (GString (rune_of n))
    | AStr s, GTString => Some (GString s)
    | _, _ => None
    end.
  (* convert.go:27-79 the rest of export, the types that are not slices *)
  Definition export_basic (v : aval) (t : gtype) : outcome gval :=
    match t with
    | GTInt => match v with AInt n => Ok (GInt n) | _ => Panic end
    | GTFloat => match v with AFloat x => Ok (GFloat x) | _ => Panic end
    | GTComplex => match v with AComplex x => Ok (GComplex x) | _ => Panic end
    | GTString => match v with AStr s => Ok (GString s) | _ => Panic end
    | _ => Err
    end.
  (* convert.go:18-80 export *)
  Fixpoint export (v : aval) (t : gtype) {struct t} : outcome gval :=
    match self_export v t with
    | Some g => Ok g
    | None =>
        match t with
        | GTSlice e => match elements v with
                       | None => Err
                       | Some l => let* r := mapM (fun x => export x e) l in Ok (GSlice e r)
                       end
        | _ => export_basic v t
        end
    end.
  (* convert.go:83-111 Convert *)
  Fixpoint Convert (g : gval) : outcome aval :=
    match g with
    | GInt n => Ok (AInt n)
    | GUint n => Ok (AInt ((n + 2 ^ 63) mod 2 ^ 64 - 2 ^ 63))
    | GFloat x => Ok (AFloat x)
    | GComplex x => Ok (AComplex x)
    | GString s => Ok (AStr s)
    | GSlice _ l => let* r := (fix conv l := match l with [] => Ok [] | x :: l' => let* y := Convert x in let* r := conv l' in Ok (y :: r) end) l in
                    Ok (AArr [zlen l] r)
    | GBool _ => Err
    end.

  (* ---------- function.go ---------- *)
  (* a Go function: the types of its arguments, and its results with an error as the last one, if
     it has one: None no such result, Some e with e true if it is not nil *)
  Record gofunc := mkFunc { f_in : list gtype; f_call : list gval -> list gval * option bool }.
  (* function.go:36-73 the arguments.  With three or more and a left argument they stay unset, and
     reflect panics *)
  Fixpoint export_all (vs : list aval) (ts : list gtype) : outcome (list gval) :=
    match vs, ts with
    | v :: vs', t :: ts' => let* g := export v t in let* r := export_all vs' ts' in Ok (g :: r)
    | _, _ => Ok []
    end.
  Definition arguments (ts : list gtype) (L : option aval) (R : aval) : outcome (list gval) :=
    match ts, L with
    | [], _ => Ok []
    | [t], _ => let* g := export R t in Ok [g]
    | [t1; t2], Some l => let* g1 := export R t1 in let* g2 := export l t2 in Ok [g1; g2]
    | _, None => match R with
                 | AEmp => Err
                 | AArr ds l => if 1 <? zlen ds then Err else if zlen l =? zlen ts then export_all l ts else Err
                 | _ => Err
                 end
    | _, Some _ => Panic
    end.
  (* what a call gives: a value, or a list of the results *)
  Inductive result := RVal (v : aval) | RList (l : list aval).
  (* function.go:26-110 Call *)
  Definition gocall (f : gofunc) (L : option aval) (R : aval) : outcome result :=
    let* args := arguments (f_in f) L R in
    let (out, e) := f_call f args in
    match e with
    | Some true => Err
    | _ => match out with
           | [] => Ok (RVal AEmp)
           | [g] => let* v := Convert g in Ok (RVal v)
           | _ => let* l := mapM Convert out in Ok (RList l)
           end
    end.

  (* ---------- type.go ---------- *)
  Context (teqb : text -> text -> bool) (upper : text -> text).
  (* a pointer to a struct: the fields with their types, and the names of the methods *)
  Record struct := mkStruct { s_fields : list (text * (gtype * gval)); s_methods : list text }.
  Fixpoint field (l : list (text * (gtype * gval))) (n : text) : option (gtype * gval) :=
    match l with [] => None | (k, x) :: l' => if teqb k n then Some x else field l' n end.
  Fixpoint set_field (l : list (text * (gtype * gval))) (n : text) (g : gval) : list (text * (gtype * gval)) :=
    match l with [] => [] | (k, x) :: l' => if teqb k n then (k, (fst x, g)) :: l' else (k, x) :: set_field l' n g end.
  (* type.go:81-107 At: a method, a field, or nothing *)
  Inductive member := Method (n : text) | Field (v : aval).
  Definition xAt (s : struct) (key : text) : option member :=
    let n := upper key in
    if existsb (teqb n) (s_methods s) then Some (Method n)
    else match field (s_fields s) n with
         | None => None
         | Some (_, g) => match Convert g with Ok v => Some (Field v) | _ => None end
         end.
  (* type.go:109-129 Set *)
  Definition xSet (s : struct) (key : text) (v : aval) : outcome struct :=
    match field (s_fields s) key with
    | None => Err
    | Some (t, _) => let* g := export v t in Ok (mkStruct (set_field (s_fields s) key g) (s_methods s))
    end.
End Xgo.
