(* S_Tabs.v -- specification of aligned columns (C173): what a reader expects of text in columns,
   said of one line among the lines above and below it. *)
From Verif Require Import Base M_Scan M_Strings M_Format.

(* a line is a list of cells; all but the last are in columns *)
Definition in_column (j : nat) (line : list text) : bool := Nat.ltb j (length line - 1).
(* the neighbours with a cell in the column, up to the first line without one *)
Fixpoint neighbours (j : nat) (lines : list (list text)) : list (list text) :=
  match lines with l :: r => if in_column j l then l :: neighbours j r else [] | [] => [] end.
Definition widest (j : nat) (lines : list (list text)) : nat :=
  fold_right Nat.max 0%nat (map (fun l => length (nth j l [])) lines).
(* the width of column j of a line, with the lines above it (the nearest first) and below it: one
   more than the widest cell, in the adjacent lines with that column *)
Definition column_width (above : list (list text)) (l : list text) (below : list (list text)) (j : nat) : nat :=
  S (Nat.max (widest j (neighbours j above)) (Nat.max (length (nth j l [])) (widest j (neighbours j below)))).
Definition blanks (n : nat) : text := repeat r_space n.
(* a cell at the left or at the right end of its column *)
Definition placed (right : bool) (w : nat) (c : text) : text :=
  if right then blanks (w - length c) ++ c else c ++ blanks (w - length c).
(* the cells of a line in columns of widths w, and the last cell behind *)
Definition aligned (right : bool) (w : nat -> nat) (l : list text) : text :=
  concat (map (fun j => placed right (w j) (nth j l [])) (seq 0 (length l - 1))) ++ nth (length l - 1) l [].
Fixpoint aligned_lines (right : bool) (above lines below : list (list text)) : list text :=
  match lines with
  | [] => []
  | l :: r => aligned right (column_width above l (r ++ below)) l :: aligned_lines right (l :: above) r below
  end.
(* the width of column j of rows which all have it *)
Definition table_width (rows : list (list text)) (j : nat) : nat := S (widest j rows).
Definition plain (t : text) : Prop := ~ In 9 t /\ ~ In 10 t.    (* no tab and no newline *)
