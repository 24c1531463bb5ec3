(* M_Commands.v -- model of the commands of the packages a and io: apl/a/commands.go,
   apl/a/register.go, apl/io/mount.go, apl/io/read.go and apl/io/register.go.  The scanner applies
   them to the tokens of a line (M_Scan.applyCmds). *)
From Verif Require Import Base M_Scan M_Syntax M_Parse.
From Coq Require Import List Bool.
Import ListNotations.
Open Scope Z_scope.
Open Scope list_scope.

Definition ident (s : text) : token := Tok Identifier s.
Definition t_zero : token := Tok Number [48].
(* a→h, a→p, a→q, a→t, io→mount, io→cd, io→l and T__ *)
Definition n_a (r : Z) : text := [97; 8594; r].
Definition n_mount : text := [105; 111; 8594; 109; 111; 117; 110; 116].
Definition n_cd : text := [105; 111; 8594; 99; 100].
Definition n_l : text := [105; 111; 8594; 108].
Definition n_T : text := [84; 95; 95].
Definition t_assign : token := Tok Symbol [8592].
(* a/commands.go:23-36 rw0 *)
Definition rw0 (r : Z) (t : list token) : list token := ident (n_a r) :: t_zero :: t.
(* a/commands.go:53-55 printCmd *)
Definition printCmd (t : list token) : list token := ident (n_a 112) :: t.
(* a/commands.go:70-81 timeCmd *)
Definition timeCmd (t : list token) : list token :=
  [ident n_T; t_assign; ident (n_a 116); t_zero; diamond] ++ t ++ [diamond; ident (n_a 116); ident n_T].
(* io/mount.go:118-138 mCmd *)
Definition as_string (t : token) : token :=
  match t with
  | Tok Symbol [r] => if (r =? 47) || (r =? 46) then Tok M_Scan.String [r] else t
  | _ => t
  end.
Definition mCmd (t : list token) : list token :=
  match t with
  | [] => [ident n_mount; t_zero]
  | [_] => t
  | a :: b :: t' => as_string b :: ident n_mount :: as_string a :: t'
  end.
(* io/mount.go:140-146 cdCmd *)
Definition cdCmd (t : list token) : list token := match t with [] => [ident n_cd; t_zero] | _ => ident n_cd :: t end.
(* io/read.go:125-132 lCmd *)
Definition lCmd (t : list token) : list token :=
  match t with
  | [Tok M_Scan.String a; Tok M_Scan.String b] => [Tok M_Scan.String b; ident n_l; Tok M_Scan.String a]
  | _ => ident n_l :: t
  end.
(* a/register.go:38-43 and io/register.go:27-31 the names of the commands: h p q t cd l m *)
Definition commands (c : text) : option (list token -> list token) :=
  match c with
  | [104] => Some (rw0 104)
  | [112] => Some printCmd
  | [113] => Some (rw0 113)
  | [116] => Some timeCmd
  | [99; 100] => Some cdCmd
  | [108] => Some lCmd
  | [109] => Some mCmd
  | _ => None
  end.
