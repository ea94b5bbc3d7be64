(* What a packing is.  Independent of the model. *)
From Coq Require Import ZArith List.
Open Scope Z_scope.

(* a rectangle placed in the plane *)
Record box := Box { bx : Z; by_ : Z; bw : Z; bh : Z }.

(* there are at least d units between two boxes, horizontally or vertically (for d = 0:
   their interiors do not meet) *)
Definition apart (d : Z) (a b : box) : Prop :=
  bx a + bw a + d <= bx b \/ bx b + bw b + d <= bx a \/
  by_ a + bh a + d <= by_ b \/ by_ b + bh b + d <= by_ a.

(* box a lies in a bin of size w by h and keeps a distance of d from its edges *)
Definition inside (d w h : Z) (a : box) : Prop :=
  d <= bx a /\ bx a + bw a + d <= w /\ d <= by_ a /\ by_ a + bh a + d <= h.

(* sizes: the rectangles (width, height) to be packed; place i: the number of the bin of
   the i'th rectangle, and its position; used k: the size of the part of bin k that is in
   use *)
Record packing (sizes : list (Z * Z)) (spacing margin bin_w bin_h : Z) (num_bins max_bins : nat)
  (place : nat -> option (nat * Z * Z)) (used : nat -> option (Z * Z)) : Prop := Packing {
  pk_bins : (num_bins <= max_bins)%nat;
  (* every rectangle is in a bin *)
  pk_inside : forall i w h, nth_error sizes i = Some (w, h) ->
    exists k x y, place i = Some (k, x, y) /\ (k < num_bins)%nat /\ inside margin bin_w bin_h (Box x y w h);
  (* any two rectangles in the same bin are apart *)
  pk_apart : forall i j wi hi wj hj k xi yi xj yj, i <> j ->
    nth_error sizes i = Some (wi, hi) -> nth_error sizes j = Some (wj, hj) ->
    place i = Some (k, xi, yi) -> place j = Some (k, xj, yj) ->
    apart spacing (Box xi yi wi hi) (Box xj yj wj hj);
  (* the used part of a bin is the least that holds the rectangles and the margin *)
  pk_used : forall k, (k < num_bins)%nat -> exists uw uh, used k = Some (uw, uh) /\ uw <= bin_w /\ uh <= bin_h /\
    (forall i w h x y, nth_error sizes i = Some (w, h) -> place i = Some (k, x, y) ->
       inside margin uw uh (Box x y w h)) /\
    (exists i w h x y, nth_error sizes i = Some (w, h) /\ place i = Some (k, x, y) /\ x + w + margin = uw) /\
    (exists i w h x y, nth_error sizes i = Some (w, h) /\ place i = Some (k, x, y) /\ y + h + margin = uh)
}.
