(* Independent specification of palettes: what colors an image defines as a palette, and
   what it means for a color of the palette to be nearest to a given color. *)
From Coq Require Import ZArith List.
Import ListNotations.
Open Scope Z_scope.

(* The colors of an image of the given width, in reading order: color number i is the pixel
   in column i mod width of row i / width. *)
Definition color_at {A} (pixel : Z -> Z -> A) (width i : Z) : A := pixel (i mod width) (i / width).
Definition colors {A} (pixel : Z -> Z -> A) (width : Z) (n : nat) : list A :=
  map (fun i => color_at pixel width (Z.of_nat i)) (seq 0 n).

(* The number of colors: all pixels of the image, unless there are more than the limit or
   more than what can be counted. *)
Definition palette_size (int_max w h max_size : Z) : Z :=
  let n := Z.min int_max (w * h) in
  if max_size <? 0 then n else Z.min max_size n.

(* Squared distance between two colors *)
Definition distance (a b : list Z) : Z :=
  fold_right Z.add 0 (map (fun p => (fst p - snd p) * (fst p - snd p)) (combine a b)).

(* Color i is nearest to the given color when only the first k components of a color count *)
Definition nearest (palette : list (list Z)) (k : nat) (color : list Z) (i : Z) : Prop :=
  exists c, 0 <= i /\ nth_error palette (Z.to_nat i) = Some c /\
  forall d, In d palette -> distance color (firstn k c) <= distance color (firstn k d).
