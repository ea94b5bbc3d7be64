(* Independent specification of the repetition of a pattern (src/archon/image/iter.hpp:178-238):
   a pixel is replaced with a copy of the pixel in the pattern whose position is uniquely
   obtained by shifting the position by integer numbers of pattern widths and heights. *)
From Coq Require Import ZArith.
From Verif Require Import PixelBoxModel PixelBoxSpec FalloffModel FalloffSpec.
Open Scope Z_scope.

(* the box, relative to the iterator, is a part of the canvas *)
Definition box_inside {P} (c : canvas P) (ix iy : Z) (b : box) : Prop :=
  0 <= ix + px (bpos b) /\ 0 <= iy + py (bpos b) /\
  ix + px (bpos b) + width (bsize b) <= cw c /\ iy + py (bpos b) + height (bsize b) <= ch c.

(* every pixel in the area becomes a copy of a pixel of the pattern, at a distance that is
   a multiple of the width of the pattern and a multiple of the height of the pattern, and
   no other pixel is changed *)
Definition filled {P} (c : canvas P) (ix iy : Z) (pattern area : box) (c' : canvas P) : Prop :=
  cw c' = cw c /\ ch c' = ch c /\
  (forall x y, in_box area x y -> forall k l,
     in_box pattern (x + k * width (bsize pattern)) (y + l * height (bsize pattern)) ->
     cpix c' (ix + x) (iy + y) =
     cpix c (ix + (x + k * width (bsize pattern))) (iy + (y + l * height (bsize pattern)))) /\
  (forall x y, ~ in_box area x y -> cpix c' (ix + x) (iy + y) = cpix c (ix + x) (iy + y)).

(* such a pixel of the pattern exists *)
Definition shift_exists (pattern : box) (x y : Z) : Prop :=
  exists k l, in_box pattern (x + k * width (bsize pattern)) (y + l * height (bsize pattern)).

(* the pattern together with what is to the left of it, to the right, above, or below *)
Definition left_of (b : box) (n : Z) : box :=
  Box (Pos (px (bpos b) - n) (py (bpos b))) (Size (n + width (bsize b)) (height (bsize b))).
Definition right_of (b : box) (n : Z) : box :=
  Box (bpos b) (Size (width (bsize b) + n) (height (bsize b))).
Definition above (b : box) (n : Z) : box :=
  Box (Pos (px (bpos b)) (py (bpos b) - n)) (Size (width (bsize b)) (n + height (bsize b))).
Definition below (b : box) (n : Z) : box :=
  Box (bpos b) (Size (width (bsize b)) (height (bsize b) + n)).
