(* M_Mount.v -- model of the mount table and of its file systems: apl/io/fs.go, the file
   systems of variables (apl/io/var.go) and of the environment (apl/io/env.go), the function
   io→mount (apl/io/mount.go).

   A name is the list of its bytes.  47 is the byte of '/', 46 that of '.', 61 that of '='.
   Every function of fs.go holds the lock of the table from its start to its end (or to the
   return of lookup): it is one step of the model. *)
From Verif Require Import Base M_Array M_Strings.

Definition slash : Z := 47.
(* strings.HasSuffix, strings.TrimPrefix, strings.TrimSuffix *)
Definition HasSuffix (s p : bytes) : bool := HasPrefix (rev s) (rev p).
Definition TrimPrefix (s p : bytes) : bytes := if HasPrefix s p then skipn (length p) s else s.
Fixpoint beq (a b : bytes) : bool :=
  match a, b with
  | [], [] => true
  | x :: a', y :: b' => (x =? y) && beq a' b'
  | _, _ => false
  end.

Section Table.
  Context {F : Type}.
  (* fs.go:78-87 mpoint, mtab.tab: in the order of mounting *)
  Definition mtab := list (bytes * F).

  (* fs.go:159-179 Mount: the error, if any, and the table afterwards *)
  Definition Mount (mpt : bytes) (f : F) (tab : mtab) : outcome unit * mtab :=
    if negb (HasPrefix mpt [slash]) then (Err, tab) else
    if negb (HasSuffix mpt [slash]) then (Err, tab) else
    if existsb (fun t => beq (fst t) mpt) tab then (Err, tab) else
    (Ok tt, tab ++ [(mpt, f)]).

  (* fs.go:182-197 Umount: n is the index of the last entry with this mount point *)
  Fixpoint last_of (mpt : bytes) (tab : mtab) (i : nat) (n : option nat) : option nat :=
    match tab with
    | [] => n
    | t :: r => last_of mpt r (S i) (if beq (fst t) mpt then Some i else n)
    end.
  Definition Umount (mpt : bytes) (tab : mtab) : mtab :=
    match last_of mpt tab 0 None with
    | None => tab
    | Some n => firstn n tab ++ skipn (S n) tab
    end.

  (* fs.go:137-157 lookup, and the same loop in Create 103-125: from the last entry to the
     first one *)
  Fixpoint scan_tab (rtab : list (bytes * F)) (name : bytes) : option (F * bytes) :=
    match rtab with
    | [] => None
    | (mpt, f) :: r => if HasPrefix name mpt then Some (f, mpt) else scan_tab r name
    end.
  Definition lookup (tab : mtab) (name : bytes) : outcome (F * bytes) :=
    if (length tab =? 0)%nat then Err else
    match scan_tab (rev tab) name with Some x => Ok x | None => Err end.

  (* fs.go:88-96 Open: the file system, the name that is passed to its method Open, and the
     mount point, that is passed too *)
  Definition open_target (tab : mtab) (name : bytes) : outcome (F * bytes * bytes) :=
    let* t := lookup tab name in
    Ok (fst t, TrimPrefix name (snd t), snd t).
  (* fs.go:98-135 Create: the file system and the name passed to its method Write *)
  Definition create_target (writable : F -> bool) (tab : mtab) (name : bytes) : outcome (F * bytes) :=
    if (length tab =? 0)%nat then Err else
    match scan_tab (rev tab) name with
    | None => Err
    | Some (f, mpt) => if writable f then Ok (f, TrimPrefix name mpt) else Err
    end.

  (* mount.go:22-36 mount with a nil left argument: the keys and the map of the dictionary; the
     value is the printed file system *)
  Definition mount_dict (str : F -> bytes) (tab : mtab) : list bytes * (bytes -> option bytes) :=
    fold_left (fun d t => (fst d ++ [fst t], fun k => if beq k (fst t) then Some (str (snd t)) else snd d k))
      tab ([], fun _ => None).

  (* A history of calls, from the empty table. *)
  Inductive mop := MMount (mpt : bytes) (f : F) | MUmount (mpt : bytes).
  Definition mstep (tab : mtab) (o : mop) : mtab :=
    match o with
    | MMount mpt f => snd (Mount mpt f tab)
    | MUmount mpt => Umount mpt tab
    end.
  Definition mrun (h : list mop) : mtab := fold_left mstep h [].
End Table.
Arguments mtab : clear implicits.
Arguments mop : clear implicits.

(* ---------- filepath.Join on slashes (path/filepath Join, Clean of the Go library) ---------- *)
(* A cleaned path: is it absolute, and its components. *)
Definition path := (bool * list bytes)%type.
(* the components of a name between slashes *)
Fixpoint comps (s : bytes) (cur : bytes) : list bytes :=
  match s with
  | [] => [cur]
  | b :: r => if b =? slash then cur :: comps r [] else comps r (cur ++ [b])
  end.
(* one component after the cleaned components, in reverse: "" and "." are dropped, ".." removes
   the last one if it is not ".." itself *)
Definition clean1 (rooted : bool) (acc : list bytes) (c : bytes) : list bytes :=
  if beq c [] || beq c [46] then acc
  else if beq c [46; 46] then
    match acc with
    | [] => if rooted then [] else [c]
    | d :: acc' => if beq d [46; 46] then c :: acc else acc'
    end
  else c :: acc.
Definition Clean (s : bytes) : path :=
  let rooted := HasPrefix s [slash] in
  (rooted, rev (fold_left (clean1 rooted) (comps s []) [])).
(* filepath.Join(a, b): empty elements are ignored *)
Definition JoinPath (a b : bytes) : path :=
  if beq a [] then Clean b else
  if beq b [] then Clean a else Clean (a ++ [slash] ++ b).

(* ---------- the file systems ---------- *)
(* What os.Open finds at a path: a file with its content or a directory with its entries, each
   with its name and whether it is a directory. *)
Inductive osentry := OsFile (content : bytes) | OsDir (l : list (bytes * bool)).

Section World.
  (* values that are not strings; how they print; external file systems *)
  Context {V X : Type}.
  Inductive vval := VStr (s : bytes) | VOther (v : V).
  Inductive fsys := OsFs (root : bytes) | VarFs | EnvFs | ExtFs (x : X).

  (* What a program sees: the mount table, the frames of variables with the innermost first,
     the packages (name and variable), the environment, and the files of the os. *)
  Record world := mkWorld {
    tab : mtab fsys;
    frames : list (bytes -> option vval);
    pkgvar : bytes -> option vval;
    environ : bytes -> option bytes;
    osfs : path -> option osentry }.

  (* string.go:12-24: %q if PP<0 and there is no format; show prints the other values *)
  Context (strFmt : option (bytes -> bytes)) (show : V -> bytes).
  Definition vprint (v : vval) : bytes :=
    match v with
    | VStr s => match strFmt with None => s | Some q => q s end
    | VOther v => show v
    end.

  (* var.go(apl):212-229 isVarname: allowed, and is it the name of a function *)
  Context (isVarname : bytes -> bool * bool).
  (* is a value that is not a string a function *)
  Context (isFunction : V -> bool).
  (* the names ⎕, ⎕IO, ⎕PP and ⍺ in UTF-8, and the arrow *)
  Definition nQuad : bytes := [226; 142; 149].
  Definition nIO : bytes := nQuad ++ [73; 79].
  Definition nPP : bytes := nQuad ++ [80; 80].
  Definition nAlpha : bytes := [226; 141; 186].
  Definition nArrow : bytes := [226; 134; 146].
  (* the values of ⎕IO and ⎕PP, which are numbers *)
  Context (ioVal ppVal : V).
  (* strings.ContainsRune(name, '→') *)
  Definition hasArrow (name : bytes) : bool := match Index name nArrow with Some _ => true | None => false end.

  (* var.go(apl):91-119 LookupEnv; packageVar is the function pkgvar of the whole name *)
  Fixpoint find_frame (e : list (bytes -> option vval)) (name : bytes) : option vval :=
    match e with
    | [] => None
    | f :: e' => match f name with Some v => Some v | None => find_frame e' name end
    end.
  Definition Lookup (w : world) (name : bytes) : option vval :=
    if beq name nIO then Some (VOther ioVal) else
    if beq name nPP then Some (VOther ppVal) else
    if hasArrow name then pkgvar w name else
    find_frame (frames w) name.

  Definition set_frame (f : bytes -> option vval) (name : bytes) (v : vval) : bytes -> option vval :=
    fun x => if beq x name then Some v else f x.
  Definition with_frames (w : world) (e : list (bytes -> option vval)) : world :=
    mkWorld (tab w) e (pkgvar w) (environ w) (osfs w).
  Definition with_environ (w : world) (e : bytes -> option bytes) : world :=
    mkWorld (tab w) (frames w) (pkgvar w) e (osfs w).
  Definition with_tab (w : world) (t : mtab fsys) : world :=
    mkWorld t (frames w) (pkgvar w) (environ w) (osfs w).

  (* var.go(apl):34-82 AssignEnv of a string, env: the innermost frame.  Assigning a string to
     ⎕IO or ⎕PP is an error of ToBool or SetPP's argument check for strings; that to ⎕ only
     prints (the output is not modelled). *)
  Definition AssignStr (w : world) (name : bytes) (s : bytes) : outcome world :=
    let '(ok, isfunc) := isVarname name in
    if negb ok then Err else
    if hasArrow name then Err else
    if beq name nQuad then Ok w else
    if beq name nIO then Err else
    if beq name nPP then Err else
    if isfunc then Err else
    match frames w with
    | [] => Panic
    | f :: e =>
        if beq name nAlpha && (match f nAlpha with Some _ => true | None => false end) then Ok w else
        Ok (with_frames w (set_frame f name (VStr s) :: e))
    end.

  (* external file systems: opening a name, are they writable *)
  Context (extOpen : X -> bytes -> bytes -> outcome bytes) (extWritable : X -> bool).

  Definition writable (f : fsys) : bool :=
    match f with OsFs _ => false | VarFs | EnvFs => true | ExtFs x => extWritable x end.

  (* fs.go:46-75 fs.Open, fs.path *)
  Definition os_open (w : world) (root name mpt : bytes) : outcome bytes :=
    match osfs w (JoinPath root name) with
    | None => Err
    | Some (OsFile c) => Ok c
    | Some (OsDir l) =>
        Ok (Join (map (fun d => mpt ++ name ++ fst d ++ (if snd d : bool then [slash] else [])) l) [10])
    end.
  (* var.go:82-132 varfs.Open of a variable; the listing is not modelled: listing prints it *)
  Context (varList envList : world -> bytes -> bytes -> outcome bytes).
  Definition var_open (w : world) (name mpt : bytes) : outcome bytes :=
    if beq name [] || HasSuffix name [slash] then varList w name mpt else
    match Lookup w name with
    | Some x => Ok (vprint x)
    | None => Err
    end.
  (* env.go:80-104 envfs.Open *)
  Definition env_open (w : world) (name mpt : bytes) : outcome bytes :=
    if beq name [] then envList w name mpt else
    match environ w name with
    | Some v => Ok v
    | None => Err
    end.

  (* fs.go:88-96 Open and reading everything *)
  Definition Open (w : world) (name : bytes) : outcome bytes :=
    let* t := open_target (tab w) name in
    let '(f, rel, mpt) := t in
    match f with
    | OsFs root => os_open w root rel mpt
    | VarFs => var_open w rel mpt
    | EnvFs => env_open w rel mpt
    | ExtFs x => extOpen x rel mpt
    end.

  (* var.go:34-62 varfs.Write: the writer exists *)
  Definition var_write (w : world) (name : bytes) : outcome unit :=
    if HasSuffix name [slash] then Err else
    if hasArrow name then Err else
    match Lookup w name with
    | None => Err
    | Some (VStr _) => Ok tt
    | Some (VOther _) => Err
    end.
  (* os.Setenv: the key is not empty and contains no '=' and no 0, the value no 0 *)
  Definition setenv (w : world) (k v : bytes) : outcome world :=
    if beq k [] || existsb (fun b => (b =? 61) || (b =? 0)) k || existsb (fun b => b =? 0) v then Err else
    Ok (with_environ w (fun x => if beq x k then Some v else environ w x)).
  (* fs.go:98-135 Create, the writes of the chunks, and Close (var.go:71-81, env.go:117-119).
     An external file system only receives the writes. *)
  Definition WriteFile (w : world) (name : bytes) (chunks : list bytes) : outcome world :=
    let* t := create_target writable (tab w) name in
    let '(f, rel) := t in
    match f with
    | VarFs => let* _ := var_write w rel in AssignStr w rel (concat chunks)
    | EnvFs => setenv w rel (concat chunks)
    | OsFs _ => Err
    | ExtFs _ => Ok w
    end.
  (* fs.go:160-197 as operations on the world *)
  Definition MountW (w : world) (mpt : bytes) (f : fsys) : outcome unit * world :=
    let '(o, t) := Mount mpt f (tab w) in (o, with_tab w t).
End World.
Arguments world : clear implicits.
Arguments fsys : clear implicits.
