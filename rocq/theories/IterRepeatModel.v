(* Model of Iter::repeat, repeat_left, repeat_right, repeat_up and repeat_down
   (src/archon/image/iter.hpp).  An iterator is a position (ix, iy) in a canvas (see
   FalloffModel). *)
From Coq Require Import ZArith Bool List.
From Verif Require Import CInt IntModel PixelBoxModel FalloffModel.
From Verif Require Import ArrLib.
Open Scope Z_scope.

(* Iter::copy_to: iter.hpp:335-345, from (sx, sy) to (dx, dy) *)
Definition copy_to {P} (sx sy dx dy : Z) (sz : size) (c : canvas P) : option (canvas P) :=
  copy_from (Tray dx dy sz) sx sy c.

(* the while loops: iter.hpp:379-382, 396-399, 413-416, 430-433.  The step from the source
   to the destination is (ux * offset, uy * offset), where (ux, uy) is (-1, 0), (1, 0),
   (0, -1) or (0, 1), and n is the width or the height of the pattern. *)
Fixpoint repeat_loop {P} (fuel : nat) (ux uy n size offset sx sy : Z) (psize : PixelBoxModel.size) (c : canvas P) :
  option (Z * canvas P) :=
  match fuel with
  | O => None
  | S fuel' =>
    let? d := isub size offset in
    if n <=? d then
      let? offset' := iadd offset n in
      let? c := copy_to sx sy (sx + ux * offset') (sy + uy * offset') psize c in
      repeat_loop fuel' ux uy n size offset' sx sy psize c
    else Some (offset, c)
  end.

(* Iter::repeat_left: iter.hpp:372-386 *)
Definition repeat_left {P} (ix iy : Z) (pattern : box) (size : Z) (c : canvas P) : option (canvas P) :=
  let pw := width (bsize pattern) in
  let? _ := assert (0 <? pw) in
  let? _ := assert (0 <=? size) in
  let? d := pos_diff (bpos pattern) (Pos 0 0) in
  let sx := ix + width d in
  let sy := iy + height d in
  let? (offset, c) := repeat_loop (S (Z.to_nat size)) (-1) 0 pw size 0 sx sy (bsize pattern) c in
  let? rest := isub size offset in
  let? e := isub pw rest in
  copy_to (sx + e) sy (sx - size) sy (Size rest (height (bsize pattern))) c.

(* Iter::repeat_right: iter.hpp:389-403 *)
Definition repeat_right {P} (ix iy : Z) (pattern : box) (size : Z) (c : canvas P) : option (canvas P) :=
  let pw := width (bsize pattern) in
  let? _ := assert (0 <? pw) in
  let? _ := assert (0 <=? size) in
  let? d := pos_diff (bpos pattern) (Pos 0 0) in
  let sx := ix + width d in
  let sy := iy + height d in
  let? (offset, c) := repeat_loop (S (Z.to_nat size)) 1 0 pw size 0 sx sy (bsize pattern) c in
  let? rest := isub size offset in
  let? offset := iadd offset pw in
  copy_to sx sy (sx + offset) sy (Size rest (height (bsize pattern))) c.

(* Iter::repeat_up: iter.hpp:406-420 *)
Definition repeat_up {P} (ix iy : Z) (pattern : box) (size : Z) (c : canvas P) : option (canvas P) :=
  let ph := height (bsize pattern) in
  let? _ := assert (0 <? ph) in
  let? _ := assert (0 <=? size) in
  let? d := pos_diff (bpos pattern) (Pos 0 0) in
  let sx := ix + width d in
  let sy := iy + height d in
  let? (offset, c) := repeat_loop (S (Z.to_nat size)) 0 (-1) ph size 0 sx sy (bsize pattern) c in
  let? rest := isub size offset in
  let? e := isub ph rest in
  copy_to sx (sy + e) sx (sy - size) (Size (width (bsize pattern)) rest) c.

(* Iter::repeat_down: iter.hpp:423-437 *)
Definition repeat_down {P} (ix iy : Z) (pattern : box) (size : Z) (c : canvas P) : option (canvas P) :=
  let ph := height (bsize pattern) in
  let? _ := assert (0 <? ph) in
  let? _ := assert (0 <=? size) in
  let? d := pos_diff (bpos pattern) (Pos 0 0) in
  let sx := ix + width d in
  let sy := iy + height d in
  let? (offset, c) := repeat_loop (S (Z.to_nat size)) 0 1 ph size 0 sx sy (bsize pattern) c in
  let? rest := isub size offset in
  let? offset := iadd offset ph in
  copy_to sx sy sx (sy + offset) (Size (width (bsize pattern)) rest) c.

(* splice: pixel_box.hpp:324-327, pixel_pos.hpp:359-362, pixel_size.hpp:465-468 *)
Definition splice (x y : box) : box :=
  Box (Pos (px (bpos x)) (py (bpos y))) (Size (width (bsize x)) (height (bsize y))).

(* Iter::repeat: iter.hpp:358-369 *)
Definition repeat {P} (ix iy : Z) (pattern area : box) (c : canvas P) : option (canvas P) :=
  let? b := contains area pattern in
  let? _ := assert b in
  let? lead := pos_diff (bpos pattern) (bpos area) in
  let? w := iadd (width lead) (width (bsize pattern)) in
  let? h := iadd (height lead) (height (bsize pattern)) in
  let? trail := size_sub (bsize area) (Size w h) in
  let? c := repeat_left ix iy pattern (width lead) c in
  let? c := repeat_right ix iy pattern (width trail) c in
  let pattern_2 := splice area pattern in
  let? c := repeat_up ix iy pattern_2 (height lead) c in
  repeat_down ix iy pattern_2 (height trail) c.
