(* Independent specification of boxes: sets of pixels. *)
From Coq Require Import ZArith.
From Verif Require Import PixelBoxModel.
Open Scope Z_scope.

(* the pixel at (x, y) is in the box *)
Definition in_box (b : box) (x y : Z) : Prop :=
  px (bpos b) <= x < px (bpos b) + width (bsize b) /\
  py (bpos b) <= y < py (bpos b) + height (bsize b).

(* sizes are not negative, and they and all corners are representable *)
Definition valid_box (b : box) : Prop :=
  - 2 ^ 31 <= px (bpos b) /\ - 2 ^ 31 <= py (bpos b) /\
  0 <= width (bsize b) < 2 ^ 31 /\ 0 <= height (bsize b) < 2 ^ 31 /\
  px (bpos b) + width (bsize b) < 2 ^ 31 /\ py (bpos b) + height (bsize b) < 2 ^ 31.

(* the corners of the other box lie within the box *)
Definition corners_within (b other : box) : Prop :=
  px (bpos b) <= px (bpos other) /\ py (bpos b) <= py (bpos other) /\
  px (bpos other) + width (bsize other) <= px (bpos b) + width (bsize b) /\
  py (bpos other) + height (bsize other) <= py (bpos b) + height (bsize b).

(* the distance between the positions is representable *)
Definition near (b other : box) : Prop :=
  Z.abs (px (bpos b) - px (bpos other)) < 2 ^ 31 /\ Z.abs (py (bpos b) - py (bpos other)) < 2 ^ 31.
