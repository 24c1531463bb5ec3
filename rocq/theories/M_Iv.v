(* M_Iv.v -- the stream processor iv (cmd/iv.go, cmd/iv/main.go): the lines of the standard
   input and the values that travel on its channels.  The goroutines are those of M_Chan.v
   (LineReader is PLines, sendParseSubArray is PCells), the reader of cells is that of M_Format.v. *)
From Verif Require Import Base M_Array M_Scan M_Format.

(* ---------- apl/channel.go:150-169 LineReader: bufio.Scanner with bufio.ScanLines ---------- *)
(* the lines of a text; a newline at the end of the text does not begin another line *)
Fixpoint raw_lines (t : text) : list text :=
  match t with
  | [] => []
  | r :: t' => if r =? r_newline then [] :: raw_lines t' else match raw_lines t' with [] => [[r]] | l :: ls => (r :: l) :: ls end
  end.
(* the number of bytes of a rune in UTF-8 *)
Definition utf8_len (r : Z) : Z := if r <? 128 then 1 else if r <? 2048 then 2 else if r <? 65536 then 3 else 4.
Fixpoint bytes (t : text) : Z := match t with [] => 0 | r :: t' => utf8_len r + bytes t' end.
(* bufio.dropCR *)
Definition dropCR (l : text) : text := match rev l with 13 :: l' => rev l' | _ => l end.
(* bufio.MaxScanTokenSize: a line that fills the buffer makes Scan return false; LineReader does
   not ask for the error *)
Definition max_line : Z := 65536.
Fixpoint scan_lines (ls : list text) : list text :=
  match ls with [] => [] | l :: ls' => if max_line <=? bytes l then [] else dropCR l :: scan_lines ls' end.
Definition LineReader (t : text) : list text := scan_lines (raw_lines t).

(* ---------- the values on the channels ---------- *)
Section Items.
  Context {A : Type}.
  Inductive item := Line (t : text) | Value (c : @cell A) | Failed.
  (* apl/primitives/rho.go: the elements of a value, for L⍴C *)
  Definition ravel_item (v : item) : list item :=
    match v with Value (Cell a) => map (fun x => Value (Atom x)) (elems a) | v => [v] end.
  Definition atom_of (v : item) : outcome A := match v with Value (Atom x) => Ok x | _ => Err end.
  (* simplified: only scalars are packed, as they come from <⍤0 C *)
  Definition pack_item (shape : list nat) (vs : list item) : item :=
    match mapM atom_of vs with Ok xs => Value (Cell (mkArr (map Z.of_nat shape) xs)) | _ => Failed end.
End Items.
Arguments item A : clear implicits.
