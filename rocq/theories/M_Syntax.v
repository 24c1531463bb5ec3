(* M_Syntax.v -- the expressions that the parser builds and the interpreter evaluates.

   D stands for the values that are neither functions nor collections of expressions:
   numbers, strings, arrays, dictionaries, tables, channels, images.  They are immutable
   here; sharing of arrays is the subject of M_Heap.v. *)
From Verif Require Import Base.
From Coq Require Import String List.
Import ListNotations.
Open Scope Z_scope.
Open Scope list_scope.

(* Variable names.  var.go:207-229 isVarname classifies them by their letters; here this
   classification is part of the name: Num for names that start with an upper case letter,
   Fun for the other ones, and the special names.  A name with an arrow belongs to a
   package: var.go:53, 99-106. *)
Inductive name :=
| Num (s : string) | Fun (s : string)
| Alpha | Omega          (* the arguments of a lambda *)
| Nabla                  (* the lambda itself; not a variable name in the language *)
| Quad | QIO | QPP       (* ⎕, ⎕IO, ⎕PP *)
| Pkg (p : string) (x : string) (fn : bool)   (* p→x *)
| Illegal (s : string).
Definition name_eqb (a b : name) : bool :=
  match a, b with
  | Num s, Num t | Fun s, Fun t | Illegal s, Illegal t => String.eqb s t
  | Alpha, Alpha | Omega, Omega | Nabla, Nabla | Quad, Quad | QIO, QIO | QPP, QPP => true
  | Pkg p x f, Pkg q y g => String.eqb p q && String.eqb x y && Bool.eqb f g
  | _, _ => false
  end.
(* var.go:207-229 isVarname: allowed, and is it the name of a function *)
Definition isVarname (x : name) : bool * bool :=
  match x with
  | Num _ | Alpha | Omega | Quad | QIO | QPP => (true, false)
  | Fun _ => (true, true)
  | Pkg _ _ fn => (true, fn)
  | Nabla | Illegal _ => (false, false)
  end.

Section Syntax.
  Context {D : Type}.
  Inductive expr :=
  | EConst (d : D)                                   (* NumExpr, String, EmptyArray *)
  | EArray (l : list expr)                           (* array.go:26 array *)
  | EVar (x : name)                                  (* var.go:160 numVar *)
  | EFn (f : func)                                   (* a function expression *)
  | EApp (f : func) (l : option expr) (r : expr) (sel : bool)   (* function.go:27-31 function *)
  | EList (l : list (option expr))                   (* list.go:105 list *)
  | EIdx (l : list expr)                             (* index.go:44 idxSpec *)
  with func :=
  | FPrim (p : string)                               (* function.go:106 Primitive *)
  | FVar (x : name)                                  (* var.go:184 fnVar *)
  | FLam (body : list guard)                         (* lambda.go:17 lambda *)
  | FSelf                                            (* lambda.go:173 self *)
  | FTrain (l : list expr)                           (* train.go:11 train *)
  | FDer (op : string) (lo ro : option expr)         (* op.go:36 derived *)
  | FNative (s : string)                             (* function.go:193 ToFunction and package functions *)
  with guard :=                                      (* lambda.go:123 guardExpr *)
  | Guard (cond : option expr) (e : option expr).

  (* eval.go:139-147 isAssignment *)
  Definition assign_op : string := "←"%string.
  Definition isAssign (e : expr) : bool :=
    match e with EApp (FDer op _ _) _ _ _ => String.eqb op assign_op | _ => false end.
  Definition isAssignment (e : option expr) : bool := match e with Some e => isAssign e | None => false end.
End Syntax.
Arguments expr : clear implicits. Arguments func : clear implicits. Arguments guard : clear implicits.
