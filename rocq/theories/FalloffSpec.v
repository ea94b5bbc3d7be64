(* Independent specification of reading outside of the boundary of an image, and of
   clipped writing.

   src/archon/image/reader.hpp:656-724: any pixel outside of the image boundary is read as
   if the image was extended indefinitely with pixels of the background color, with copies
   of the closest pixel in the image (or with the background color if the image is empty),
   or as if the image was repeated indefinitely.  With different modes, the effect is as if
   the image is first extended in the horizontal direction, and the entire horizontal
   extension is then extended in the vertical direction.

   src/archon/image/writer.hpp:144-146: only the part of the image that overlaps with the
   specified area is affected. *)
From Coq Require Import ZArith Bool List.
From Verif Require Import PixelBoxModel PixelBoxSpec FalloffModel.
Open Scope Z_scope.

(* extension in one direction of a line of n pixels (bg is what the background is) *)
Definition extend {A} (m : mode) (n : Z) (bg : A) (line : Z -> A) (i : Z) : A :=
  if (0 <=? i) && (i <? n) then line i
  else match m with
       | Background => bg
       | Edge => if i <? 0 then line 0 else line (n - 1)
       | Repeat => line (i mod n)
       end.

(* the color of a pixel of the image *)
Definition color_at {P} (s : source P) (bg : P) (x y : Z) : P :=
  match s with
  | Direct c => cpix c x y
  | Indexed c palette => nth (cpix c x y) palette bg
  end.

(* the color of a pixel of the extended image: horizontally, and then vertically *)
Definition extended {P} (s : source P) (hm vm : mode) (bg : P) (x y : Z) : P :=
  let w := width (source_size s) in
  let h := height (source_size s) in
  if (w =? 0) || (h =? 0) then bg
  else extend vm h bg (fun y' => extend hm w bg (fun x' => color_at s bg x' y') x) y.

(* vertically, and then horizontally *)
Definition extended_alt {P} (s : source P) (hm vm : mode) (bg : P) (x y : Z) : P :=
  let w := width (source_size s) in
  let h := height (source_size s) in
  if (w =? 0) || (h =? 0) then bg
  else extend hm w bg (fun x' => extend vm h bg (fun y' => color_at s bg x' y') y) x.

(* positions and sizes are of type int, and sizes are not negative *)
Definition int_pos (p : pos) : Prop := - 2 ^ 31 <= px p < 2 ^ 31 /\ - 2 ^ 31 <= py p < 2 ^ 31.
Definition int_size (s : size) : Prop := 0 <= width s < 2 ^ 31 /\ 0 <= height s < 2 ^ 31.

(* the pixel at (x, y) of the canvas is in the tray *)
Definition in_tray (t : tray) (x y : Z) : Prop :=
  tx t <= x < tx t + width (tsize t) /\ ty t <= y < ty t + height (tsize t).

(* the tray is a part of the canvas *)
Definition tray_ok {P} (c : canvas P) (t : tray) : Prop :=
  int_size (tsize t) /\ 0 <= tx t /\ 0 <= ty t /\
  tx t + width (tsize t) <= cw c /\ ty t + height (tsize t) <= ch c.

(* c' is c except for the tray, where the pixels are those given by f (relative to the
   tray) *)
Definition tray_becomes {P} (c : canvas P) (t : tray) (f : Z -> Z -> P) (c' : canvas P) : Prop :=
  cw c' = cw c /\ ch c' = ch c /\
  (forall x y, in_tray t x y -> cpix c' x y = f (x - tx t) (y - ty t)) /\
  (forall x y, ~ in_tray t x y -> cpix c' x y = cpix c x y).

(* img' is img, except that the pixels in the area have been changed by f *)
Definition area_becomes {R} (img : canvas R) (area : box) (f : Z -> Z -> R -> R) (img' : canvas R) : Prop :=
  cw img' = cw img /\ ch img' = ch img /\
  forall x y, 0 <= x < cw img -> 0 <= y < ch img ->
    (in_box area x y -> cpix img' x y = f x y (cpix img x y)) /\
    (~ in_box area x y -> cpix img' x y = cpix img x y).

(* the boxes are a partition of the box *)
Definition partition (b : box) (l : list box) : Prop :=
  (forall c, In c l -> valid_box c /\ corners_within b c) /\
  (forall x y, in_box b x y -> exists i c, nth_error l i = Some c /\ in_box c x y) /\
  (forall i j c d x y, nth_error l i = Some c -> nth_error l j = Some d ->
     in_box c x y -> in_box d x y -> i = j).

(* an image whose sizes are of type int *)
Definition source_ok {P} (s : source P) : Prop := int_size (source_size s).

(* a position that is not the lowest one in any of the two directions *)
Definition legal_pos (p : pos) : Prop := int_pos p /\ px p <> - 2 ^ 31 /\ py p <> - 2 ^ 31.

(* what becomes of a pixel of the image when a pixel is written over it *)
Definition paint {R P} (ops : pixel_ops R P) (blending : bool) (p : P) (old : R) : R :=
  if blending then enc ops (over ops p (dec ops old)) else enc ops p.
