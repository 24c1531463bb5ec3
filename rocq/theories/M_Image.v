(* M_Image.v -- model of images: apl/image.go and apl/domain/image.go.

   The image of a numeric matrix is an *image.RGBA of Go's standard library, whose At and Set are
   modelled here (image/image.go: points outside the bounds are read as the zero color, and are
   ignored when set).  uint32 and uint8 are integers modulo 2^32 and 2^8.  Images with a palette
   cannot be built: domain/image.go:51-64 returns false for every list. *)
From Verif Require Import Base M_Array.

Record color := mkColor { c_r : Z; c_g : Z; c_b : Z; c_a : Z }.
Definition zero_color : color := mkColor 0 0 0 0.
(* image.go:15-32 Image: the rows and columns (Dims) and the pixels of the RGBA image *)
Record image := mkImage { im_h : Z; im_w : Z; im_pix : list color }.

Definition u32 (x : Z) : Z := x mod 2 ^ 32.
Definition u8 (x : Z) : Z := x mod 2 ^ 8.
(* image.go:95-98 toColor (and its copy domain/image.go:117-120) *)
Definition toColor (i : Z) : color :=
  let u := u32 i in
  mkColor (u8 (Z.shiftr (Z.land u 0xFF0000) 16)) (u8 (Z.shiftr (Z.land u 0xFF00) 8)) (u8 (Z.land u 0xFF)) (255 - u8 (Z.shiftr u 24)).
(* image/color RGBA.RGBA: 16 bit channels *)
Definition wide (b : Z) : Z := Z.lor b (Z.shiftl b 8).
(* image.go:90-94 colorValue *)
Definition colorValue (c : color) : Z :=
  let a := wide (c_a c) in let r := wide (c_r c) in let g := wide (c_g c) in let b := wide (c_b c) in
  u32 (Z.lor (Z.lor (Z.lor (Z.shiftl (255 - Z.shiftr a 8) 16) (Z.shiftl (Z.land r 0xFF00) 8)) (Z.land g 0xFF00)) (Z.shiftr b 8)).

(* image.RGBA.At and Set: x is the column, y the row *)
Definition in_rect (m : image) (x y : Z) : bool := (0 <=? x) && (x <? im_w m) && (0 <=? y) && (y <? im_h m).
Definition rgba_at (m : image) (x y : Z) : color :=
  if in_rect m x y then match znth (im_pix m) (y * im_w m + x) with Some c => c | None => zero_color end else zero_color.
Definition rgba_set (m : image) (x y : Z) (c : color) : image :=
  if in_rect m x y then mkImage (im_h m) (im_w m) (zupd (im_pix m) (y * im_w m + x) c) else m.
(* domain/image.go:87-106 the double loop: pixel x, y is the next value *)
Fixpoint fill_row (m : image) (x y : Z) (vs : list Z) (n : nat) {struct n} : image * list Z :=
  match n with
  | O => (m, vs)
  | S n' => match vs with
            | c :: vs' => fill_row (rgba_set m x y (toColor c)) (x + 1) y vs' n'
            | [] => (m, [])
            end
  end.
Fixpoint fill_rows (m : image) (y : Z) (vs : list Z) (n : nat) : image :=
  match n with
  | O => m
  | S n' => let (m, vs) := fill_row m 0 y vs (Z.to_nat (im_w m)) in fill_rows m (y + 1) vs n'
  end.
(* domain/image.go:70-115 ints2image without a palette; None is false *)
Definition ints2image (ia : arr Z) : option image :=
  match dims ia with
  | [h; w] => Some (fill_rows (mkImage h w (repeat zero_color (Z.to_nat (h * w)))) 0 (elems ia) (Z.to_nat h))
  | _ => None
  end.
(* image.go:45-49 At: ic.Indexes(k), then Image.At(idx[0], idx[1]) *)
Definition imgAt (m : image) (k : Z) : outcome Z :=
  let* ic := NewIdxConverter [im_h m; im_w m] in
  let* idx := ic_indexes ic k in
  match idx with
  | [i; j] => Ok (colorValue (rgba_at m i j))
  | _ => Panic
  end.
(* image.go:56-72 Set with an integer value *)
Definition imgSet (m : image) (k v : Z) : outcome image :=
  if im_w m =? 0 then Panic else
  let y := Z.quot k (im_w m) in
  let x := k - y * im_w m in
  Ok (rgba_set m x y (toColor v)).
(* image.go:74-87 toIntArray: all pixels, row by row *)
Definition toIntArray (m : image) : arr Z :=
  mkArr [im_h m; im_w m]
        (flat_map (fun y => map (fun x => colorValue (rgba_at m x y)) (zseq (im_w m))) (zseq (im_h m))).
