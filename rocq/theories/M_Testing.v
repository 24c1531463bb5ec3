(* M_Testing.v -- the runner of the example programs: cmd/testing.go.

   Simplified: a directory is the list of its names in the order in which the os gives them, and a
   function from names to contents.  Running a program in a fresh interpreter is a function: the text
   of the error, if there is one, and the output.  The files of iv are valid UTF-8, so that reading
   their runes and writing them gives the same bytes.  Messages are constructors. *)
From Verif Require Import Base M_Array M_Strings M_Mount.

Inductive failure :=
| FNoFile (name : bytes)                          (* os.Open *)
| FFailedBut (file err : bytes)                   (* testing.go:111 the .err file is missing *)
| FError (file want got : bytes)                  (* testing.go:114 *)
| FShouldHaveFailed (file : bytes)                (* testing.go:123 the .out file is missing *)
| FDiffers (name : bytes) (line byte : Z)         (* testing.go:149 *)
| FNoProgram (name : bytes)                       (* testing.go:82-84 no first line *)
| FIvError (err : bytes).                         (* testing.go:87-89 *)

Definition sApl : bytes := [46; 97; 112; 108].
Definition sErr : bytes := [46; 101; 114; 114].
Definition sOut : bytes := [46; 111; 117; 116].
Definition sIv : bytes := [46; 105; 118].
(* file[:len(file)-n] *)
Definition cutoff (n : Z) (file : bytes) : outcome bytes :=
  if zlen file <? n then Panic else Ok (firstn (Z.to_nat (zlen file - n)) file).

Section Testing.
  Context (content : bytes -> option bytes).
  (* testing.go:107-117 compareError: nil is None *)
  Definition compareError (got file : bytes) : outcome (option failure) :=
    let* stem := cutoff 4 file in
    match content (stem ++ sErr) with
    | None => Ok (Some (FFailedBut file got))
    | Some want => if beq (got ++ [10]) want then Ok None else Ok (Some (FError file want (got ++ [10])))
    end.
  (* testing.go:135-144: the loop; the result is the position, or at, and the line *)
  Fixpoint diff_loop (want got : bytes) (i line at_ : Z) : Z * Z :=
    match want, got with
    | w :: want', g :: got' =>
        let line := if w =? 10 then line + 1 else line in
        if g =? w then diff_loop want' got' (i + 1) line at_ else (i, line)
    | _, _ => (at_, line)
    end.
  (* testing.go:119-150 compareOut *)
  Definition compareOut (got file : bytes) : option failure :=
    let name := file ++ sOut in
    match content name with
    | None => Some (FShouldHaveFailed file)
    | Some want =>
        let max := Z.min (zlen want) (zlen got) in
        let at_ := if zlen want =? zlen got then -1 else max in
        let '(at_, line) := diff_loop want got 0 1 at_ in
        if at_ <? 0 then None else Some (FDiffers name line (at_ + 1))
    end.
  (* a run in file mode: no result if the file cannot be opened *)
  Context (apl : bytes -> option bytes * bytes).
  (* testing.go:63-71 testAplFile *)
  Definition testAplFile (file : bytes) : outcome (option failure) :=
    let '(err, out) := apl file in
    match err with
    | Some e => compareError e file
    | None => let* stem := cutoff 4 file in Ok (compareOut out stem)
    end.
  (* testing.go:28-36, 52-60: the loop over the files of the directory *)
  Fixpoint each_file (suffix : bytes) (test : bytes -> outcome (option failure)) (files : list bytes) : outcome (option failure) :=
    match files with
    | [] => Ok None
    | f :: r =>
        if negb (HasSuffix f suffix) then each_file suffix test r else
        let* o := test f in
        match o with Some e => Ok (Some e) | None => each_file suffix test r end
    end.
  (* testing.go:15-38 AplTest *)
  Definition AplTest (files : list bytes) : outcome (option failure) := each_file sApl testAplFile files.

  (* testing.go:93-105 readline: up to the newline, which must be there *)
  Fixpoint readline (s : bytes) : option (bytes * bytes) :=
    match s with
    | [] => None
    | b :: r => if b =? 10 then Some ([], r) else match readline r with Some (l, q) => Some (b :: l, q) | None => None end
    end.
  (* a run of iv: the program and its input *)
  Context (iv : bytes -> bytes -> option bytes * bytes).
  (* testing.go:72-91 testIvFile *)
  Definition testIvFile (file : bytes) : outcome (option failure) :=
    match content (file ++ sIv) with
    | None => Ok (Some (FNoFile (file ++ sIv)))
    | Some c =>
        match readline c with
        | None => Ok (Some (FNoProgram file))
        | Some (prog, rest) =>
            match prog with
            | [] => Panic                                  (* prog[1:] *)
            | _ :: p =>
                let '(err, out) := iv p rest in
                match err with Some e => Ok (Some (FIvError e)) | None => Ok (compareOut out file) end
            end
        end
    end.
  (* testing.go:39-61 IvTest *)
  Definition IvTest (files : list bytes) : outcome (option failure) :=
    each_file sIv (fun f => let* stem := cutoff 3 f in testIvFile stem) files.
End Testing.
