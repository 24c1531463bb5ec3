(* M_Tabs.v -- model of the text of values with aligned columns: arrays (apl/fmt.go:91-108),
   dictionaries (apl/object.go:77-94) and tables (apl/table.go:29-41, 64-72, 112-129, 154-161), with the part
   of Go's text/tabwriter they use.

   Library model: text/tabwriter with minwidth 1, padding 1, pad character blank, and no flag but
   AlignRight.  The text is given as a list of runes, which is what the tabwriter counts for the
   width of a cell.  Simplified: no vertical tab and no form feed, which end a cell or a line as
   well, no rune 255 byte (the escape of the tabwriter, no byte of valid UTF-8). *)
From Verif Require Import Base M_Array M_Scan M_Strings M_Format.

Definition r_tab := 9. Definition r_colon := 58.

(* ---------- text/tabwriter ---------- *)
(* text/tabwriter Write: a tab ends a cell, a newline the last cell of a line.  The last line is the
   one without newline *)
Fixpoint split_at (c : Z) (s : text) : list text :=
  match s with
  | [] => [[]]
  | x :: s' =>
      if x =? c then [] :: split_at c s'
      else match split_at c s' with l :: r => (x :: l) :: r | [] => [[x]] end
  end.
Definition lines_of (s : text) : list (list text) := map (split_at r_tab) (split_at r_newline s).

(* text/tabwriter writePadding *)
Definition pad_cell (right : bool) (w : nat) (c : text) : text :=
  if right then repeat r_space (w - length c) ++ c else c ++ repeat r_space (w - length c).
(* text/tabwriter writeLines, of one line: the cells with a width are padded to it *)
Fixpoint write_line (right : bool) (widths : list nat) (cells : list text) : text :=
  match cells with
  | [] => []
  | c :: cells' =>
      match widths with
      | w :: widths' => pad_cell right w c ++ write_line right widths' cells'
      | [] => c ++ write_line right [] cells'
      end
  end.
(* text/tabwriter format: column < len(line)-1, the cell of the column is ended by a tab *)
Definition has_col (c : nat) (line : list text) : bool := Nat.ltb (S c) (length line).
(* text/tabwriter format, the inner loop: the column block, and the lines behind it *)
Fixpoint col_block (c : nat) (lines : list (list text)) : list (list text) * list (list text) :=
  match lines with
  | [] => ([], [])
  | l :: r => if has_col c l then let (b, r') := col_block c r in (l :: b, r') else ([], l :: r)
  end.
(* text/tabwriter format, the inner loop: the width of a column block, at least minwidth *)
Definition block_width (c : nat) (lines : list (list text)) : nat :=
  fold_left (fun w l => Nat.max w (length (nth c l []) + 1)) lines 1%nat.
(* text/tabwriter format: lines with a cell in the next column form a block, whose width is fixed
   before the columns to the right are formatted; other lines are written.  The fuel bounds the
   recursion *)
Fixpoint format_tabs (fuel : nat) (right : bool) (widths : list nat) (lines : list (list text)) : list text :=
  match fuel with
  | O => []
  | S fuel' =>
      match lines with
      | [] => []
      | l :: r =>
          let c := length widths in
          if has_col c l then
            let (b, rest) := col_block c lines in
            format_tabs fuel' right (widths ++ [block_width c b]) b ++ format_tabs fuel' right widths rest
          else write_line right widths l :: format_tabs fuel' right widths r
      end
  end.
Definition max_cells (lines : list (list text)) : nat := fold_right (fun l m => Nat.max (length l) m) 0%nat lines.
(* text/tabwriter Write and Flush of a whole text *)
Definition tabwrite (right : bool) (s : text) : text :=
  let lines := lines_of s in
  Join (format_tabs (S (length lines + max_cells lines)) right [] lines) [r_newline].

(* ---------- the values ---------- *)
(* fmt.go:92-100 what is written to the tabwriter: the index and the shape with the last axis first *)
Fixpoint array_cells {A} (show : A -> text) (idx shape : list Z) (l : list A) : text :=
  match l with
  | [] => []
  | x :: l' =>
      let (idx', term) := inc_from 0 idx shape in
      show x ++ [r_tab]
      ++ (if 0 <? term then repeat r_newline (Z.to_nat term) else if term =? -1 then [r_newline] else [])
      ++ array_cells show idx' shape l'
  end.
(* fmt.go:63-108 ArrayString for PP >= -1 *)
Definition array_text {A} (show : A -> text) (v : arr A) : text :=
  match dims v with
  | [] => []
  | [_] => Join (map show (elems v)) [r_space]
  | shape => strip_newline (tabwrite true (array_cells show (zerosZ (length shape)) (rev shape) (elems v)))
  end.
(* object.go:83-93 Dict.String for PP >= -1: the texts of the keys and of their values *)
Definition dict_text (kvs : list (text * text)) : text :=
  strip_newline (tabwrite false (concat (map (fun kv : text * text => let (k, v) := kv in k ++ [r_colon; r_tab] ++ v ++ [r_newline]) kvs))).
(* table.go:31-41 String, 64-72 WriteFormatted, 112-118 and 143-145 write, 158-161 writeRow: the texts of
   the header and of the rows; the newline at the end stays *)
Definition table_text (rows : list (list text)) : text :=
  tabwrite false (concat (map (fun r => Join r [r_tab] ++ [r_newline]) rows)).
