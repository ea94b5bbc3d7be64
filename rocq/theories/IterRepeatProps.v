(* Theorems on the repetition of a pattern *)
From Coq Require Import ZArith Bool List Lia.
From Verif Require Import CInt IntModel PixelBoxModel PixelBoxSpec PixelBoxProps.
From Verif Require Import FalloffModel FalloffSpec FalloffProofs FalloffProofs2 FalloffProofs3 FalloffProps.
From Verif Require Import IterRepeatModel IterRepeatSpec IterRepeatProofs.
From Verif Require Import ArrLib.
Import ListNotations.
Open Scope Z_scope.

(* The one-direction functions.  The size of what is filled together with the pattern is
   of type int. *)
Theorem repeat_left_exact : forall P (c : canvas P) ix iy pattern n,
  0 < width (bsize pattern) -> 0 <= n -> int_pos (bpos pattern) -> int_size (bsize (left_of pattern n)) ->
  box_inside c ix iy (left_of pattern n) ->
  exists c', repeat_left ix iy pattern n c = Some c' /\ filled c ix iy pattern (left_of pattern n) c'.
Proof.
  intros P c ix iy [p [pw ph]] n Hpw Hn Hp Hs Hi. pose proof (area_tray_ok c ix iy _ Hs Hi) as Ht.
  destruct Hs as ((S1 & S2) & (S3 & S4)). cbn [left_of bpos bsize px py width height] in *.
  set (pattern := Box p (Size pw ph)) in *.
  destruct (left_ok c (area_tray ix iy (left_of pattern n))
    (target c ix iy pattern (px (bpos (left_of pattern n))) (py (bpos (left_of pattern n)))) Ht n 0 pw ph)
    with (G := fun x y => in_box pattern (px (bpos (left_of pattern n)) + x) (py (bpos (left_of pattern n)) + y))
      (ix := ix) (iy := iy) (p := p) (n := n) (c := c) as (c' & E & Hg);
    try (cbn [left_of area_tray tx ty tsize width height bpos bsize px py pattern]; lia).
  - unfold in_box. cbn [pattern left_of bpos bsize px py width height]. lia.
  - intros x y k. apply (target_px c ix iy pattern).
  - assumption.
  - apply good_pattern.
  - exists c'. split; [exact E|]. eapply good_filled; [exact Hg|]. cbn beta.
    unfold in_box. cbn [pattern left_of bpos bsize px py width height]. lia.
Qed.

Theorem repeat_right_exact : forall P (c : canvas P) ix iy pattern n,
  0 < width (bsize pattern) -> 0 <= n -> int_pos (bpos pattern) -> int_size (bsize (right_of pattern n)) ->
  box_inside c ix iy (right_of pattern n) ->
  exists c', repeat_right ix iy pattern n c = Some c' /\ filled c ix iy pattern (right_of pattern n) c'.
Proof.
  intros P c ix iy [p [pw ph]] n Hpw Hn Hp Hs Hi. pose proof (area_tray_ok c ix iy _ Hs Hi) as Ht.
  destruct Hs as ((S1 & S2) & (S3 & S4)). cbn [right_of bpos bsize px py width height] in *.
  set (pattern := Box p (Size pw ph)) in *.
  destruct (right_ok c (area_tray ix iy (right_of pattern n))
    (target c ix iy pattern (px (bpos (right_of pattern n))) (py (bpos (right_of pattern n)))) Ht 0 0 pw ph)
    with (G := fun x y => in_box pattern (px (bpos (right_of pattern n)) + x) (py (bpos (right_of pattern n)) + y))
      (ix := ix) (iy := iy) (p := p) (n := n) (c := c) as (c' & E & Hg);
    try (cbn [right_of area_tray tx ty tsize width height bpos bsize px py pattern]; lia).
  - unfold in_box. cbn [pattern right_of bpos bsize px py width height]. lia.
  - intros x y k. apply (target_px c ix iy pattern).
  - assumption.
  - apply good_pattern.
  - exists c'. split; [exact E|]. eapply good_filled; [exact Hg|]. cbn beta.
    unfold in_box. cbn [pattern right_of bpos bsize px py width height]. lia.
Qed.

Theorem repeat_up_exact : forall P (c : canvas P) ix iy pattern n,
  0 < height (bsize pattern) -> 0 <= n -> int_pos (bpos pattern) -> int_size (bsize (above pattern n)) ->
  box_inside c ix iy (above pattern n) ->
  exists c', repeat_up ix iy pattern n c = Some c' /\ filled c ix iy pattern (above pattern n) c'.
Proof.
  intros P c ix iy [p [pw ph]] n Hph Hn Hp Hs Hi. pose proof (area_tray_ok c ix iy _ Hs Hi) as Ht.
  destruct Hs as ((S1 & S2) & (S3 & S4)). cbn [above bpos bsize px py width height] in *.
  set (pattern := Box p (Size pw ph)) in *.
  destruct (up_ok c (area_tray ix iy (above pattern n))
    (target c ix iy pattern (px (bpos (above pattern n))) (py (bpos (above pattern n)))) Ht 0 n pw ph)
    with (G := fun x y => in_box pattern (px (bpos (above pattern n)) + x) (py (bpos (above pattern n)) + y))
      (ix := ix) (iy := iy) (p := p) (n := n) (c := c) as (c' & E & Hg);
    try (cbn [above area_tray tx ty tsize width height bpos bsize px py pattern]; lia).
  - unfold in_box. cbn [pattern above bpos bsize px py width height]. lia.
  - intros x y k. apply (target_py c ix iy pattern).
  - assumption.
  - apply good_pattern.
  - exists c'. split; [exact E|]. eapply good_filled; [exact Hg|]. cbn beta.
    unfold in_box. cbn [pattern above bpos bsize px py width height]. lia.
Qed.

Theorem repeat_down_exact : forall P (c : canvas P) ix iy pattern n,
  0 < height (bsize pattern) -> 0 <= n -> int_pos (bpos pattern) -> int_size (bsize (below pattern n)) ->
  box_inside c ix iy (below pattern n) ->
  exists c', repeat_down ix iy pattern n c = Some c' /\ filled c ix iy pattern (below pattern n) c'.
Proof.
  intros P c ix iy [p [pw ph]] n Hph Hn Hp Hs Hi. pose proof (area_tray_ok c ix iy _ Hs Hi) as Ht.
  destruct Hs as ((S1 & S2) & (S3 & S4)). cbn [below bpos bsize px py width height] in *.
  set (pattern := Box p (Size pw ph)) in *.
  destruct (down_ok c (area_tray ix iy (below pattern n))
    (target c ix iy pattern (px (bpos (below pattern n))) (py (bpos (below pattern n)))) Ht 0 0 pw ph)
    with (G := fun x y => in_box pattern (px (bpos (below pattern n)) + x) (py (bpos (below pattern n)) + y))
      (ix := ix) (iy := iy) (p := p) (n := n) (c := c) as (c' & E & Hg);
    try (cbn [below area_tray tx ty tsize width height bpos bsize px py pattern]; lia).
  - unfold in_box. cbn [pattern below bpos bsize px py width height]. lia.
  - intros x y k. apply (target_py c ix iy pattern).
  - assumption.
  - apply good_pattern.
  - exists c'. split; [exact E|]. eapply good_filled; [exact Hg|]. cbn beta.
    unfold in_box. cbn [pattern below bpos bsize px py width height]. lia.
Qed.

(* The whole area is filled with repetitions of the pattern. *)
Theorem repeat_exact : forall P (c : canvas P) ix iy pattern area,
  0 < width (bsize pattern) -> 0 < height (bsize pattern) -> valid_box area -> corners_within area pattern ->
  box_inside c ix iy area ->
  exists c', repeat ix iy pattern area c = Some c' /\ filled c ix iy pattern area c' /\
    forall x y, shift_exists pattern x y.
Proof.
  intros P c ix iy pattern area Hpw Hph Hv Hc Hi.
  pose proof Hv as (V1 & V2 & V3 & V4 & V5 & V6). pose proof Hc as (C1 & C2 & C3 & C4).
  assert (Ht : tray_ok c (area_tray ix iy area)) by (apply area_tray_ok; [unfold int_size; lia|assumption]).
  unfold repeat. rewrite contains_ok by (try assumption; lia). cbn [obind assert].
  unfold pos_diff. rewrite !isub_ok by lia. cbn [obind width height]. rewrite !iadd_ok by lia. cbn [obind].
  unfold size_sub. cbn [width height]. rewrite !isub_ok by lia. cbn [obind width height].
  remember (px (bpos pattern) - px (bpos area)) as ax. remember (py (bpos pattern) - py (bpos area)) as ay.
  destruct pattern as [p [pw ph]]. cbn [bpos bsize width height] in *.
  set (pattern := Box p (Size pw ph)) in *.
  set (F := target c ix iy pattern (px (bpos area)) (py (bpos area))).
  set (t := area_tray ix iy area) in *.
  assert (Fx : forall x y k, F (x + k * pw) y = F x y) by (intros; apply (target_px c ix iy pattern)).
  assert (Fy : forall x y k, F x (y + k * ph) = F x y) by (intros; apply (target_py c ix iy pattern)).
  assert (Hp : int_pos p) by (unfold int_pos; lia).
  assert (Tw : width (tsize t) = width (bsize area)) by reflexivity.
  assert (Th : height (tsize t) = height (bsize area)) by reflexivity.
  assert (Tx : tx t = ix + px (bpos area)) by reflexivity.
  assert (Ty : ty t = iy + py (bpos area)) by reflexivity.
  destruct (left_ok c t F Ht ax ay pw ph) with (G := fun x y => ax <= x < ax + pw /\ ay <= y < ay + ph)
    (ix := ix) (iy := iy) (p := p) (n := ax) (c := c) as (c1 & E1 & Hg1); try lia; try assumption.
  { eapply good_weaken; [apply good_pattern|]. cbn beta. unfold in_box. cbn [pattern bpos bsize width height]. lia. }
  fold pattern in E1. rewrite E1. cbn [obind].
  destruct (right_ok c t F Ht ax ay pw ph) with (G := fun x y => 0 <= x < ax + pw /\ ay <= y < ay + ph)
    (ix := ix) (iy := iy) (p := p) (n := width (bsize area) - (ax + pw)) (c := c1) as (c2 & E2 & Hg2); try lia; try assumption.
  { eapply good_weaken; [exact Hg1|]. cbn beta. lia. }
  fold pattern in E2. rewrite E2. cbn [obind].
  unfold splice. cbn [pattern bpos bsize width height].
  destruct (up_ok c t F Ht 0 ay (width (bsize area)) ph) with (G := fun x y => 0 <= x < width (bsize area) /\ ay <= y < ay + ph)
    (ix := ix) (iy := iy) (p := Pos (px (bpos area)) (py p)) (n := ay) (c := c2) as (c3 & E3 & Hg3);
    try (cbn [px py]; lia); try assumption.
  { unfold int_pos. cbn [px py]. lia. }
  { eapply good_weaken; [exact Hg2|]. cbn beta. lia. }
  rewrite E3. cbn [obind].
  destruct (down_ok c t F Ht 0 ay (width (bsize area)) ph) with (G := fun x y => 0 <= x < width (bsize area) /\ 0 <= y < ay + ph)
    (ix := ix) (iy := iy) (p := Pos (px (bpos area)) (py p)) (n := height (bsize area) - (ay + ph)) (c := c3)
    as (c4 & E4 & Hg4); try (cbn [px py]; lia); try assumption.
  { unfold int_pos. cbn [px py]. lia. }
  { eapply good_weaken; [exact Hg3|]. cbn beta. lia. }
  exists c4. split; [exact E4|]. split.
  - eapply good_filled; [exact Hg4|]. cbn beta. lia.
  - intros x y. apply shift_ok; cbn [pattern bsize width height]; lia.
Qed.

Definition ex_grid : canvas Z := Canvas 6 4 (fun x y => 10 * y + x).

Example repeat_ex :
  valid_box (Box (Pos (-1) 0) (Size 6 4)) /\
  corners_within (Box (Pos (-1) 0) (Size 6 4)) (Box (Pos 1 1) (Size 2 2)) /\
  box_inside ex_grid 1 0 (Box (Pos (-1) 0) (Size 6 4)) /\
  ex_rows (repeat 1 0 (Box (Pos 1 1) (Size 2 2)) (Box (Pos (-1) 0) (Size 6 4)) ex_grid) =
    Some [[22; 23; 22; 23; 22; 23]; [12; 13; 12; 13; 12; 13]; [22; 23; 22; 23; 22; 23]; [12; 13; 12; 13; 12; 13]] /\
  ex_rows (repeat_left 0 0 (Box (Pos 3 1) (Size 2 1)) 3 ex_grid) =
    Some [[0; 1; 2; 3; 4; 5]; [14; 13; 14; 13; 14; 15]; [20; 21; 22; 23; 24; 25]; [30; 31; 32; 33; 34; 35]] /\
  ex_rows (repeat_right 0 0 (Box (Pos 0 0) (Size 2 1)) 3 ex_grid) =
    Some [[0; 1; 0; 1; 0; 5]; [10; 11; 12; 13; 14; 15]; [20; 21; 22; 23; 24; 25]; [30; 31; 32; 33; 34; 35]] /\
  ex_rows (repeat_up 0 0 (Box (Pos 0 2) (Size 1 2)) 1 ex_grid) =
    Some [[0; 1; 2; 3; 4; 5]; [30; 11; 12; 13; 14; 15]; [20; 21; 22; 23; 24; 25]; [30; 31; 32; 33; 34; 35]] /\
  ex_rows (repeat_down 0 0 (Box (Pos 0 0) (Size 1 2)) 2 ex_grid) =
    Some [[0; 1; 2; 3; 4; 5]; [10; 11; 12; 13; 14; 15]; [0; 21; 22; 23; 24; 25]; [10; 31; 32; 33; 34; 35]].
Proof.
  split; [unfold valid_box; cbn; lia|]. split; [unfold corners_within; cbn; lia|].
  split; [unfold box_inside; cbn; lia|]. repeat (split; [vm_compute; reflexivity|]). vm_compute. reflexivity.
Qed.

Print Assumptions repeat_left_exact.
Print Assumptions repeat_right_exact.
Print Assumptions repeat_up_exact.
Print Assumptions repeat_down_exact.
Print Assumptions repeat_exact.
