(* M_IoFns.v -- the functions of the package io as they are called from APL: io→mount, io→umount and
   io→cd (apl/io/mount.go), io→x and ! (exec, apl/io/read.go), the registered protocols (apl/io/fs.go)
   and what Register mounts (apl/io/register.go).  The mount table itself is M_Mount.v.

   Simplified: the operating system is a function that tells for an absolute path whether it is a
   directory or a file; symbolic links are not modelled.  A started program is the list of its
   arguments and its input; its output is read by a channel (C73). *)
From Verif Require Import Base Eff M_Array M_Strings M_Mount.

Definition dot : bytes := [46].
(* "://" *)
Definition proto_sep : bytes := [58; 47; 47].
(* the string that filepath.Clean and filepath.Join return (Go library) *)
Definition path_str (p : path) : bytes :=
  if fst p then [slash] ++ Join (snd p) [slash]
  else match snd p with [] => dot | l => Join l [slash] end.
(* the path that the os uses for a path p in the working directory with the components wd *)
Definition resolve (wd : list bytes) (p : path) : list bytes :=
  if fst p then snd p else rev (fold_left (clean1 true) (snd p) (rev wd)).
(* filepath.Abs (Go library) *)
Definition Abs (wd : list bytes) (s : bytes) : path :=
  if HasPrefix s [slash] then Clean s else JoinPath (path_str (true, wd)) s.

Section IoFns.
  Context {X : Type}.
  (* fs.go:39-44 fs (a directory of the os) and all other file systems *)
  Inductive ofs := Os (root : bytes) | Ext (x : X).
  Definition protocols := list (bytes * (bytes -> outcome ofs)).
  (* fs.go:79-90 mtab, fs.go:202 protocols (in the order in which Go happens to visit the map) and the
     working directory of the process *)
  Record io := mkIo { mtable : mtab ofs; protos : protocols; wdir : list bytes }.
  (* os.Stat: None if there is nothing, else is it a directory *)
  Context (isdir : list bytes -> option bool).
  Definition is_directory (wd : list bytes) (s : bytes) : bool :=
    negb (beq s []) && match isdir (resolve wd (Clean s)) with Some true => true | _ => false end.

  (* an argument of a function of the package: a string or something else *)
  Inductive ioarg := AStr (s : bytes) | ANone.
  Inductive ioret := REmptyArray | RStr (s : bytes) | RMtab (d : list bytes * (bytes -> option bytes)).

  (* fs.go:13-21 RegisterProtocol *)
  Definition RegisterProtocol (n : bytes) (f : bytes -> outcome ofs) (s : io) : io :=
    mkIo (mtable s) ((n, f) :: filter (fun p => negb (beq (fst p) n)) (protos s)) (wdir s).

  (* mount.go:49-62: the first protocol that matches *)
  Fixpoint by_protocol (ps : protocols) (src : bytes) : option (outcome ofs) :=
    match ps with
    | [] => None
    | (n, f) :: r =>
        if HasPrefix src (n ++ proto_sep) then Some (f (TrimPrefix src (n ++ proto_sep))) else by_protocol r src
    end.
  (* mount.go:49-87: the file system of a source *)
  Definition source (s : io) (src : bytes) : outcome ofs :=
    match by_protocol (protos s) src with
    | Some o => o
    | None =>
        if beq src dot then Ok (Os dot) else
        if negb (is_directory (wdir s) src) then Err else
        Ok (Os (path_str (Abs (wdir s) src)))
    end.
  (* mount.go:21-88 mount *)
  Context (fsString : ofs -> bytes).
  Definition mount (L : option ioarg) (R : ioarg) (s : io) : outcome ioret * io :=
    match L with
    | None => (Ok (RMtab (mount_dict fsString (mtable s))), s)
    | Some (AStr mpt) =>
        match R with
        | AStr src =>
            match source s src with
            | Ok f =>
                match Mount mpt f (mtable s) with
                | (Ok _, t) => (Ok REmptyArray, mkIo t (protos s) (wdir s))
                | (Err, t) => (Err, mkIo t (protos s) (wdir s))
                | (Panic, t) => (Panic, mkIo t (protos s) (wdir s))
                end
            | Err => (Err, s)
            | Panic => (Panic, s)
            end
        | ANone => (Err, s)
        end
    | Some ANone => (Err, s)
    end.
  (* mount.go:90-98 umount *)
  Definition umount (R : ioarg) (s : io) : outcome ioret * io :=
    match R with
    | AStr m => (Ok REmptyArray, mkIo (Umount m (mtable s)) (protos s) (wdir s))
    | ANone => (Err, s)
    end.
  (* mount.go:100-116 cd *)
  Definition cd (R : ioarg) (s : io) : outcome ioret * io :=
    match R with
    | AStr d =>
        if is_directory (wdir s) d then (Ok REmptyArray, mkIo (mtable s) (protos s) (resolve (wdir s) (Clean d)))
        else (Err, s)
    | ANone => (Ok (RStr (path_str (true, wdir s))), s)
    end.
  (* register.go:56-60 Register: the protocols and mounts; the errors of mount are ignored.  [var] is the
     file system of the variables of the interpreter that registers *)
  Definition nVar : bytes := [118; 97; 114].
  Definition nEnv : bytes := [101; 110; 118].
  Definition pVar : bytes := [47; 118; 47].
  Definition pEnv : bytes := [47; 101; 47].
  Definition Register (var env : bytes -> outcome ofs) (s : io) : io :=
    let s := RegisterProtocol nVar var s in
    let s := RegisterProtocol nEnv env s in
    let s := snd (mount (Some (AStr [slash])) (AStr dot) s) in
    let s := snd (mount (Some (AStr pVar)) (AStr (nVar ++ proto_sep ++ [slash])) s) in
    snd (mount (Some (AStr pEnv)) (AStr (nEnv ++ proto_sep ++ [slash])) s).

  (* fs.go:92-100 Open, fs.go:46-49,75-77 fs.Open: the file of the os that is opened *)
  Definition opened (s : io) (name : bytes) : outcome (list bytes) :=
    let* t := open_target (mtable s) name in
    let '(f, rel, _) := t in
    match f with Os root => Ok (resolve (wdir s) (JoinPath root rel)) | Ext _ => Err end.

  (* ---------- programs ---------- *)
  (* A StringArray is a slice, which every value shares that refers to it: its address.  The heap holds
     the strings of the slices. *)
  Definition heap := list (list bytes).
  Inductive earg :=
  | EStr (s : bytes)                      (* a string *)
  | EStrs (p : Z)                         (* a StringArray *)
  | EArr (l : list (option bytes))        (* another array: its elements, None if one is not a string *)
  | EOther.
  Definition hget (p : Z) : eff heap (list bytes) := fun h => (match znth h p with Some l => Ok l | None => Panic end, h).
  Definition hset (p : Z) (l : list bytes) : eff heap unit := fun h => (Ok tt, zupd h p l).
  Definition hnew (l : list bytes) : eff heap Z := fun h => (Ok (zlen h), h ++ [l]).
  Fixpoint all_strings (l : list (option bytes)) : option (list bytes) :=
    match l with
    | [] => Some []
    | Some x :: r => option_map (cons x) (all_strings r)
    | None :: _ => None
    end.
  (* domain/string.go:45-73 ToStringArray(nil).To: a StringArray is passed as it is *)
  Definition toStrings (r : earg) : eff heap Z :=
    match r with
    | EStrs p => eret p
    | EStr s => hnew [s]
    | EArr l => match all_strings l with Some v => hnew v | None => efail end
    | EOther => efail
    end.
  (* exec.Cmd.Start: can the program be started *)
  Context (starts : list bytes -> bool).
  (* read.go:38-89 exec; [text] is the text of the right argument, or of the channel, for the input of
     the program.  The result is the program that runs and its input. *)
  Definition exec (tab : mtab ofs) (L : option earg) (R : earg) (text : bytes) : eff heap (list bytes * option bytes) :=
    let r := match L with Some l => l | None => R end in
    let input := match L with Some _ => Some text | None => None end in
    let! p := toStrings r in
    let! argv := hget p in
    match argv with
    | [] => efail
    | a0 :: rest =>
        let! _ := (if HasPrefix a0 [slash] then
                     let! t := elift (lookup tab a0) in
                     match fst t with
                     | Ext _ => efail
                     | Os root => hset p (path_str (JoinPath root (TrimPrefix a0 (snd t))) :: rest)
                     end
                   else eret tt) in
        let! argv := hget p in
        if starts argv then eret (argv, input) else efail
    end.
End IoFns.
Arguments ofs : clear implicits.
Arguments io : clear implicits.
Arguments protocols : clear implicits.
