(* M_Eval.v -- model of the interpreter: apl/eval.go, apl/function.go, apl/lambda.go,
   apl/train.go, apl/op.go, apl/var.go, apl/assign.go, apl/operators/assign.go:23-113 and
   apl/apl.go LoadPkg.

   The primitive functions, the operators and the functions of packages are parameters.
   Their code is given as a tree of the actions they can make on the interpreter: call a
   function (in the current or in a new environment), look up a variable, read or change
   the rest of the interpreter's state.  A Go function that terminates as long as the
   functions it calls do is such a tree.  Not modelled: concurrency (functions applied to
   channels run concurrently with the caller), and the functions of package io that assign
   variables by a file name.

   Environments form a stack: a frame is only reachable through the chain of its
   children, and a lambda does not keep the environment in which it was made.  A pointer
   to a frame is represented by its height above the root. *)
From Verif Require Import Base M_Syntax.
From Coq Require Import String List.
Import ListNotations.
Open Scope Z_scope.
Open Scope list_scope.

Section Values.
  Context {D : Type}.
  Inductive value :=
  | VNil                                         (* the nil of Go *)
  | VD (d : D)
  | VFn (f : func D)
  | VId (x : name)                               (* var.go:16 Identifier *)
  | VList (l : list value)                       (* list.go:10 List *)
  | VIdx (l : list value)                        (* index.go:14 IdxSpec *)
  | VTarget (e : expr D).                        (* assign.go:11 assignment *)
  (* the code of primitives and derived functions; X is the rest of the state *)
  Context {X : Type}.
  Inductive code :=
  | CRet (o : outcome value)
  | CCall (f : func D) (l : option value) (r : value) (k : outcome value -> code)
  | CEnvCall (f : func D) (l : option value) (r : value) (vars : list (name * value)) (k : outcome value -> code)
  | CLook (x : name) (k : value -> code)
  | CExt (h : X -> X * code).
End Values.
Arguments value : clear implicits. Arguments code : clear implicits.

Section State.
  Context {D X : Type}.
  Local Notation value := (value D).
  (* lambda.go:10-13 env; the first frame is the current one *)
  Definition frame := list (name * value).
  (* apl.go:32-50 Apl *)
  Record st := mkSt { envs : list frame; pkgs : list (string * frame); origin : Z; out : list value; ext : X }.
  Definition with_envs (s : st) (e : list frame) : st := mkSt e (pkgs s) (origin s) (out s) (ext s).
  Definition with_ext (s : st) (x : X) : st := mkSt (envs s) (pkgs s) (origin s) (out s) x.

  Fixpoint fget (f : frame) (x : name) : option value :=
    match f with [] => None | (y, v) :: f' => if name_eqb y x then Some v else fget f' x end.
  Fixpoint fset (f : frame) (x : name) (v : value) : frame :=
    match f with [] => [(x, v)] | (y, w) :: f' => if name_eqb y x then (x, v) :: f' else (y, w) :: fset f' x v end.
  (* replace the frame of height h (the root has height 0) *)
  Definition upd_height (e : list frame) (h : nat) (g : frame -> frame) : list frame :=
    let i := (length e - 1 - h)%nat in
    firstn i e ++ match skipn i e with [] => [] | f :: e' => g f :: e' end.

  (* effects: None is used for computations that did not end with the given fuel *)
  Definition M (A : Type) := st -> option (outcome A * st).
  Definition mret {A} (a : A) : M A := fun s => Some (Ok a, s).
  Definition mfail {A} : M A := fun s => Some (Err, s).
  Definition mpanic {A} : M A := fun s => Some (Panic, s).
  Definition mbind {A B} (m : M A) (k : A -> M B) : M B := fun s =>
    match m s with
    | None => None
    | Some (Ok a, s') => k a s'
    | Some (Err, s') => Some (Err, s')
    | Some (Panic, s') => Some (Panic, s')
    end.
  (* a Go function that handles the error of a call; a panic goes through *)
  Definition mtry {A B} (m : M A) (k : outcome A -> M B) : M B := fun s =>
    match m s with
    | None => None
    | Some (Panic, s') => Some (Panic, s')
    | Some (o, s') => k o s'
    end.
  Fixpoint mmap {A B} (f : A -> M B) (l : list A) : M (list B) :=
    match l with
    | [] => mret []
    | x :: l' => mbind (f x) (fun y => mbind (mmap f l') (fun ys => mret (y :: ys)))
    end.
End State.
Arguments st : clear implicits. Arguments frame : clear implicits. Arguments M : clear implicits.
Notation "'do' x <- e ; k" := (mbind e (fun x => k)) (at level 60, x strict pattern, e at level 200, k at level 200, right associativity).

Section Interp.
  Context {D X : Type}.
  Local Notation value := (value D).
  Local Notation code := (code D X).
  Local Notation expr := (expr D).
  Local Notation func := (func D).
  Local Notation st := (st D X).
  Local Notation M := (M D X).
  Local Notation frame := (frame D).

  (* function.go:157-162 PrimitiveHandler; op.go:21-27 Operator *)
  Record handler := mkHandler { hto : X -> option value -> value -> option (option value * value);
                                hcall : option value -> value -> code; hselect : option value -> value -> code }.
  Record operator := mkOperator { odyadic : bool; oto : X -> value -> option value -> option (value * option value);
                                  oderived : value -> option value -> option value -> value -> code;
                                  oselect : option value -> value -> option value -> value -> code }.
  (* register.go:11-18 RegisterPrimitive, 21-31 RegisterOperator: the history of all
     registrations, the oldest first, gives the handlers of a symbol, the latest first.
     Operators of different arity for the same symbol are rejected; this is not modelled. *)
  Definition registered {H} (hist : list (string * H)) (p : string) : list H :=
    fold_left (fun m ph => fun q => if String.eqb (fst ph) q then snd ph :: m q else m q) hist (fun _ => []) p.
  (* everything the interpreter is built with *)
  Record lang := mkLang {
    l_primitives : string -> list handler; l_operators : string -> list operator; l_natives : string -> option value -> value -> code;
    (* the data *)
    l_emptyD : D; l_isArr : D -> bool; l_mkarr : list value -> D; l_toBool : D -> option bool; l_intD : Z -> D;
    l_asVec : value -> option (list Z * list value);
    l_setidx : value -> value -> option func -> value -> code;   (* operators/assign.go:123-254 with indexes *)
    l_getpp : X -> D; l_setpp : value -> X -> outcome X; l_islower : string -> bool }.
  Context (G : lang).
  Local Notation primitives := (l_primitives G).
  Local Notation operators := (l_operators G).
  Local Notation natives := (l_natives G).
  Local Notation emptyD := (l_emptyD G).
  Local Notation isArr := (l_isArr G).
  Local Notation mkarr := (l_mkarr G).
  Local Notation toBool := (l_toBool G).
  Local Notation intD := (l_intD G).
  Local Notation asVec := (l_asVec G).
  Local Notation setidx := (l_setidx G).
  Local Notation getpp := (l_getpp G).
  Local Notation setpp := (l_setpp G).
  Local Notation islower := (l_islower G).
  Definition isFn (v : value) : bool := match v with VFn _ => true | _ => false end.
  (* array.go:12-23 isScalar *)
  Definition isScalar (v : value) : bool :=
    match v with VD d => negb (isArr d) | VFn _ | VId _ | VList _ => false | _ => true end.

  (* var.go:91-119 LookupEnv: the value and the height of the frame, if it was found in one *)
  Fixpoint find_env (e : list frame) (x : name) : value * option nat :=
    match e with
    | [] => (VNil, None)
    | f :: e' => match fget f x with Some v => (v, Some (length e')) | None => find_env e' x end
    end.
  Definition LookupEnv (s : st) (x : name) : value * option nat :=
    match x with
    | QIO => (VD (intD (origin s)), None)
    | QPP => (VD (getpp (ext s)), None)
    | Pkg p y fn =>
        if negb (islower p) then (VNil, None) else
        match find (fun q => String.eqb (fst q) p) (pkgs s) with
        | None => (VNil, None)
        | Some (_, f) => (match fget f (if fn then Fun y else Num y) with Some v => v | None => VNil end, None)
        end
    | _ => find_env (envs s) x
    end.
  Definition Lookup (s : st) (x : name) : value := fst (LookupEnv s x).

  (* var.go:34-82 AssignEnv; env: the height of the frame, None for the current one *)
  Definition AssignEnv (x : name) (v : value) (env : option nat) (s : st) : outcome unit * st :=
    let '(ok, isfunc) := isVarname x in
    if negb ok then (Err, s) else
    match x with
    | Pkg _ _ _ => (Err, s)
    | Quad => (Ok tt, mkSt (envs s) (pkgs s) (origin s) (out s ++ [v]) (ext s))
    | QIO => match v with
             | VD d => match toBool d with
                       | Some b => (Ok tt, mkSt (envs s) (pkgs s) (if b then 1 else 0) (out s) (ext s))
                       | None => (Err, s)
                       end
             | _ => (Err, s)
             end
    | QPP => match setpp v (ext s) with Ok x' => (Ok tt, with_ext s x') | Err => (Err, s) | Panic => (Panic, s) end
    | _ =>
        if isFn v && negb isfunc then (Err, s) else
        if negb (isFn v) && isfunc then (Err, s) else
        let h := match env with Some h => h | None => (length (envs s) - 1)%nat end in
        (* assignment to the left argument does not replace a given one *)
        let given := match x with
                     | Alpha => match skipn (length (envs s) - 1 - h) (envs s) with
                                | f :: _ => match fget f Alpha with None | Some VNil => false | Some _ => true end
                                | [] => false
                                end
                     | _ => false
                     end in
        if given then (Ok tt, s) else
        (Ok tt, with_envs s (upd_height (envs s) h (fun f => fset f x v)))
    end.
  Definition massign (x : name) (v : value) (env : option nat) : M unit := fun s => let '(o, s') := AssignEnv x v env s in Some (o, s').

  Inductive task :=
  | TEval (e : expr)
  | TCall (f : func) (l : option value) (r : value)
  | TCode (c : code)
  | TLoop (body : list (guard D)) (l : option value) (r : value).

  Section Step.
    (* the recursive calls *)
    Context (self : task -> M value).
    Definition eval e := self (TEval e).
    Definition call f l r := self (TCall f l r).
    Definition evalOpt (e : option expr) : M value := match e with Some e => eval e | None => mpanic end.

    (* function.go:14-24 EnvCall and lambda.go:37-43: run in a new environment; the old one
       is restored in any case (defer) *)
    Definition in_env (vars : frame) (m : M value) : M value := fun s =>
      let save := length (envs s) in
      match m (with_envs s (vars :: envs s)) with
      | None => None
      | Some (o, s') => Some (o, with_envs s' (skipn (length (envs s') - save) (envs s')))
      end.

    (* function.go:124-138 Primitive.Call *)
    Fixpoint try_handlers (hs : list handler) (pick : handler -> option value -> value -> code) (l : option value) (r : value) : M value :=
      match hs with
      | [] => mfail
      | h :: hs' => fun s => match hto h (ext s) l r with
                             | Some (l', r') => self (TCode (pick h l' r')) s
                             | None => try_handlers hs' pick l r s
                             end
      end.
    Fixpoint try_operators (ops : list operator) (lo : value) (ro : option value) (k : operator -> value -> option value -> code) : M value :=
      match ops with
      | [] => mfail
      | o :: ops' => fun s => match oto o (ext s) lo ro with
                              | Some (lo', ro') => self (TCode (k o lo' ro')) s
                              | None => try_operators ops' lo ro k s
                              end
      end.

    (* train.go:24-125; the parts are evaluated, then called *)
    Definition asFunc (v : value) : M func := match v with VFn f => mret f | _ => mfail end.
    (* train.go:75-91 atop *)
    Definition atop (t0 t1 : value) (l : option value) (r : value) : M value :=
      do g <- asFunc t0; do h <- asFunc t1; do v <- call h l r; call g None v.
    (* train.go:99-125 fork; the first part may be an array *)
    Definition fork (t0 t1 t2 : value) (l : option value) (r : value) : M value :=
      do g <- asFunc t1; do h <- asFunc t2;
      do lv <- (match t0 with VFn f => call f l r | _ => mret t0 end);
      do rv <- call h l r; call g (Some lv) rv.
    Definition train (t : list expr) (l : option value) (r : value) : M value :=
      match t with
      | [] | [_] => mfail
      | [e0; e1] => do a <- eval e0; do b <- eval e1; atop a b l r
      | [e0; e1; e2] => do a <- eval e0; do b <- eval e1; do c <- eval e2; fork a b c l r
      | e0 :: ((e1 :: t2) as t1) =>
          if Nat.even (length t) then do a <- eval e0; atop a (VFn (FTrain t1)) l r
          else do a <- eval e0; do b <- eval e1; fork a b (VFn (FTrain t2)) l r
      end.

    (* assign.go:68-125 evalAssign *)
    Inductive target := TOne (x : name) (idx : option value) | TMany (xs : list name).
    Fixpoint target_name (e : expr) : option name :=
      match e with EVar x => Some x | EApp _ _ r _ => target_name r | _ => None end.
    Fixpoint mark (e : expr) : expr := match e with EApp f l r _ => EApp f l (mark r) true | _ => e end.
    Fixpoint names (l : list expr) : option (list name) :=
      match l with
      | [] => Some []
      | EVar x :: l' => option_map (cons x) (names l')
      | _ :: _ => None
      end.
    Definition evalAssign (e : option expr) : M target :=
      match e with
      | None => mfail
      | Some (EFn (FVar f)) => mret (TOne f None)
      | Some (EArray l) => match names l with Some xs => mret (TMany xs) | None => mfail end
      | Some e =>
          match target_name e with
          | None => mfail
          | Some x => match e with
                      | EApp _ _ _ _ => do idx <- eval (mark e); mret (TOne x (Some idx))
                      | _ => mret (TOne x None)
                      end
          end
      end.
    (* operators/assign.go:88-109 assignScalar, 112-121 assignValue *)
    Definition assignScalar (x : name) (idx : option value) (f : option func) (R : value) : M unit :=
      match f, idx with
      | None, None => massign x R None
      | _, _ => fun s =>
          match LookupEnv s x with
          | (VNil, _) => mfail s
          | (w, env) =>
              (do v <- (match idx with
                        | None => match f with Some f => call f (Some w) R | None => mpanic end
                        | Some i => self (TCode (setidx w i f R))
                        end);
               match v with VNil => mret tt | _ => massign x v env end) s
          end
      end.
    (* operators/assign.go:48-82 assignVector *)
    Fixpoint assign_each (xs : list name) (vs : list value) (f : option func) : M unit :=
      match xs, vs with
      | [], _ => mret tt
      | x :: xs', v :: vs' => do _ <- assignScalar x None f v; assign_each xs' vs' f
      | _ :: _, [] => mfail
      end.
    Definition assignVector (xs : list name) (R : value) (f : option func) : M value :=
      let '(sh, vs) := match asVec R with Some a => a | None => ([1], [R]) end in
      match sh with
      | [n] =>
          if negb (n =? 1) && negb (n =? zlen xs) then mfail else
          if n =? 1 then match vs with
                         | [] => mfail
                         | v :: _ => do _ <- assign_each xs (repeat v (length xs)) f; mret R
                         end
          else do _ <- assign_each xs vs f; mret R
      | _ => mfail
      end.
    (* op.go:82-110 and operators/assign.go:23-44: the function derived by the operator ← *)
    Definition assign_call (lo : option expr) (l : option value) (R : value) : M value :=
      do (t, f) <- (match l with
                     | None => do t <- evalAssign lo; mret (t, None)
                     | Some (VTarget e) =>
                         match lo with
                         | Some (EFn f) => do t <- evalAssign (Some e); mret (t, Some f)
                         | None => do t <- evalAssign (Some e); mret (t, None)
                         | Some _ => mfail
                         end
                     | Some _ => mfail
                     end);
      match t with
      | TMany xs => assignVector xs R f
      | TOne x idx => do _ <- assignScalar x idx f R; mret R
      end.

    (* op.go:68-120 derived.Call *)
    Definition derived_call (op : string) (lo ro : option expr) (l : option value) (r : value) : M value :=
      if String.eqb op assign_op then assign_call lo l r else
      match operators op with
      | [] => mfail
      | (o :: _) as ops =>
          do rv <- (if odyadic o then do v <- evalOpt ro; mret (Some v) else mret None);
          do lv <- evalOpt lo;
          try_operators ops lv rv (fun o lo' ro' => oderived o lo' ro' l r)
      end.
    (* op.go:122-156 derived.Select *)
    Definition derived_select (op : string) (lo ro : option expr) (l : option value) (r : value) : M value :=
      match operators op with
      | [] => mfail
      | (o :: _) as ops =>
          if odyadic o && negb (String.eqb op "⍂") then mfail else
          do lv <- evalOpt lo;
          do rv <- (if odyadic o then do v <- evalOpt ro; mret (Some v) else mret None);
          try_operators ops lv rv (fun o lo' ro' => oselect o l lo' ro' r)
      end.

    (* lambda.go:143-170 guardExpr.Eval: None if the condition is false *)
    Definition guard_eval (c : option expr) (e : option expr) : M (option value) :=
      match c with
      | None => do v <- evalOpt e; mret (Some v)
      | Some c =>
          do v <- eval c;
          match (match v with VD d => toBool d | _ => None end) with
          | None => mfail
          | Some false => mret None
          | Some true => do v <- evalOpt e; mret (Some v)
          end
      end.
    (* lambda.go:92-119 guardList.Eval *)
    Definition self_call (e : option expr) : option (option expr * expr) :=
      match e with Some (EApp FSelf l r _) => Some (l, r) | _ => None end.
    (* a value or a tail call, lambda.go:199 tail: only lambda.Call sees it *)
    Inductive gres := GVal (v : value) | GTail (l : option expr) (r : expr).
    Fixpoint guards (gs : list (guard D)) (ret : value) : M gres :=
      match gs with
      | [] => mret (GVal ret)
      | Guard c e :: gs' =>
          let isa := isAssignment e in
          if match c with None => true | Some _ => false end && match gs' with [] => false | _ => true end && negb isa then mfail else
          match self_call e with
          | Some (l, r) => mret (GTail l r)
          | None =>
              do v <- guard_eval c e;
              match v with
              | None | Some VNil => guards gs' ret
              | Some v => if isa then guards gs' v else mret (GVal v)
              end
          end
      end.
    Definition set_top (x : name) (v : value) (s : st) : st := with_envs s (upd_height (envs s) (length (envs s) - 1) (fun f => fset f x v)).
    Definition optv (o : option value) : value := match o with Some v => v | None => VNil end.

    Definition step (t : task) : M value :=
      match t with
      | TEval e =>
          match e with
          | EConst d => mret (VD d)
          | EArray [] => mret (VD emptyD)
          | EArray [e] => eval e
          | EArray l => (* array.go:28-71, from left to right *)
              do vs <- mmap (fun e => do v <- eval e; if isScalar v then mret v else mfail) l; mret (VD (mkarr vs))
          | EVar x => fun s => match Lookup s x with VNil => mret (VId x) s | v => mret v s end
          | EFn f => mret (VFn f)
          | EApp f l r sel => (* function.go:34-68 *)
              do rv <- eval r;
              do lv <- (match l with
                        | None => mret None
                        | Some l => match f with
                                    | FDer op _ _ => if String.eqb op assign_op then mret (Some (VTarget l)) else do v <- eval l; mret (Some v)
                                    | _ => do v <- eval l; mret (Some v)
                                    end
                        end);
              if sel && match r with EVar _ => true | _ => false end then
                match f with
                | FDer op lo ro => derived_select op lo ro lv rv
                | FPrim p => try_handlers (primitives p) hselect lv rv
                | _ => mfail
                end
              else call f lv rv
          | EList l => (* list.go:107-121 *)
              do vs <- mmap (fun e => match e with None => mret (VD emptyD) | Some e => eval e end) l; mret (VList vs)
          | EIdx l => do vs <- mmap eval l; mret (VIdx vs) (* index.go:58-68 *)
          end
      | TCall f l r =>
          match f with
          | FPrim p => try_handlers (primitives p) hcall l r
          | FVar x => (* var.go:195-206 *)
              fun s => match Lookup s x with
                       | VNil => mret (VId x) s
                       | VFn g => call g l r s
                       | _ => mfail s
                       end
          | FLam [] => mret (VD emptyD)
          | FLam body => in_env [(Nabla, VFn (FLam body))] (self (TLoop body l r))   (* lambda.go:32-45 *)
          | FSelf => (* lambda.go:184-198 *)
              fun s => match envs s with
                       | [] | [_] => mfail s
                       | e :: _ => match fget e Nabla with
                                   | Some (VFn (FLam body)) => call (FLam body) l r s
                                   | _ => mfail s
                                   end
                       end
          | FTrain t => train t l r
          | FDer op lo ro => derived_call op lo ro l r
          | FNative p => self (TCode (natives p l r))
          end
      | TCode c =>
          match c with
          | CRet o => fun s => Some (o, s)
          | CCall f l r k => mtry (call f l r) (fun o => self (TCode (k o)))
          | CEnvCall f l r vars k => mtry (in_env vars (call f l r)) (fun o => self (TCode (k o)))
          | CLook x k => fun s => self (TCode (k (Lookup s x))) s
          | CExt h => fun s => let '(x, c) := h (ext s) in self (TCode c) (with_ext s x)
          end
      | TLoop body l r => (* lambda.go:46-66 *)
          fun s =>
          (do v <- guards body (VD emptyD);
           match v with
           | GTail tl tr =>
               do r' <- eval tr;
               do l' <- (match tl with None => mret l | Some e => do v <- eval e; mret (Some v) end);
               self (TLoop body l' r')
           | GVal v => mret v
           end) (set_top Omega r (set_top Alpha (optv l) s))
      end.
  End Step.

  Fixpoint interp (n : nat) (t : task) : M value :=
    match n with O => fun _ => None | S n => step (interp n) t end.

  (* eval.go:16-61 Eval: a program is a list of expressions; a panic is turned into an error *)
  Fixpoint eval_prog (n : nat) (p : list expr) : M unit :=
    match p with
    | [] => mret tt
    | e :: p' =>
        do v <- interp n (TEval e);
        do _ <- (if isAssign e then mret tt else
                 match v with VNil => mpanic | _ => fun s => Some (Ok tt, mkSt (envs s) (pkgs s) (origin s) (out s ++ [v]) (ext s)) end);
        eval_prog n p'
    end.
  Definition Eval (n : nat) (p : list expr) : M unit := fun s =>
    match eval_prog n p s with Some (Panic, s') => Some (Err, s') | r => r end.

  (* eval.go:86-121 EvalFile: the statements of the file in order, as the line buffer and
     the parser deliver them (M_Lines.v, M_Parse.v); an error of these ends the file *)
  Fixpoint EvalFile (n : nat) (ps : list (outcome (list expr))) : M unit :=
    match ps with
    | [] => mret tt
    | Ok p :: ps' => do _ <- Eval n p; EvalFile n ps'
    | _ :: _ => mfail
    end.
  (* apl.go:57-72 LoadPkg; the current environment is set aside.  The line a.pkg[pkg] = a.env
     comes before the deferred a.env = save. *)
  Definition set_pkg (p : string) (f : frame) (l : list (string * frame)) : list (string * frame) := (p, f) :: l.
  Definition LoadPkg (n : nat) (ps : list (outcome (list expr))) (pkg : string) : M unit := fun s =>
    let save := envs s in
    match EvalFile n ps (with_envs s [[]]) with
    | None => None
    | Some (o, s') =>
        let s'' := match o with
                   | Ok _ => mkSt (envs s') (set_pkg pkg (last (envs s') []) (pkgs s')) (origin s') (out s') (ext s')
                   | _ => s'
                   end in
        Some (o, with_envs s'' save)
    end.
End Interp.
Arguments handler : clear implicits. Arguments operator : clear implicits. Arguments lang : clear implicits. Arguments task : clear implicits.
