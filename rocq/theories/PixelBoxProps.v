(* C58, C59: boxes of pixels. *)
From Coq Require Import ZArith Lia Bool ZifyBool.
From Verif Require Import CInt IntModel IntSpec IntProofs.
From Verif Require Import ArrLib PixelBoxModel PixelBoxSpec.
Open Scope Z_scope.

Lemma isub_ok a b : - 2 ^ 31 <= a - b < 2 ^ 31 -> isub a b = Some (a - b).
Proof.
  intros H. unfold isub. replace (in_rangeb t_int (a - b)) with true; [reflexivity|].
  symmetry. apply in_rangeb_spec. unfold in_range, imin, imax, t_int. cbn in *. lia.
Qed.

Lemma can_int_add_iff a b : in_range t_int a -> in_range t_int b ->
  can_int_add a b = true <-> in_range t_int (a + b).
Proof.
  intros Ha Hb. unfold can_int_add, try_int_add. cbn [isigned t_int negb].
  rewrite try_int_add_ss_spec by (assumption || reflexivity || (cbn; lia)).
  unfold add_res. rewrite <- in_rangeb_spec. destruct (in_rangeb t_int (a + b)); split; congruence.
Qed.

(* ---- C58: intersection and clipping ---- *)

(* is_valid() says exactly that sizes are not negative and corners are representable *)
Theorem box_valid_exact : forall x y w h, in_range t_int x -> in_range t_int y ->
  in_range t_int w -> in_range t_int h ->
  let b := Box (Pos x y) (Size w h) in box_valid b = true <-> valid_box b.
Proof.
  intros x y w h Hx Hy Hw Hh b. unfold box_valid, size_valid, pos_can_add, valid_box, b. cbn [bpos bsize px py width height].
  rewrite !andb_true_iff, !can_int_add_iff by assumption.
  unfold in_range, imin, imax, t_int in *. cbn in *. lia.
Qed.

Theorem box_empty_exact : forall b, valid_box b ->
  box_empty b = false <-> exists x y, in_box b x y.
Proof.
  intros [[x y] [w h]] Hv. unfold valid_box, box_empty, size_empty, in_box in *. cbn [bpos bsize px py width height] in *.
  split.
  - intros E. exists x, y. lia.
  - intros (x' & y' & H). lia.
Qed.

(* No overflow, and the answer is that there is a common pixel. *)
Theorem box_intersects_exact_partial : forall b c, valid_box b -> valid_box c -> near b c ->
  exists r, intersects b c = Some r /\ (r = true <-> exists x y, in_box b x y /\ in_box c x y).
Proof.
  intros [[x y] [w h]] [[x' y'] [w' h']] Hb Hc Hn.
  unfold valid_box, near, intersects, intersects_dim, in_box in *. cbn [bpos bsize px py width height] in *.
  exists ((if x <? x' then (x' - x <? w) && (0 <? w') else (x - x' <? w') && (0 <? w)) &&
          (if y <? y' then (y' - y <? h) && (0 <? h') else (y - y' <? h') && (0 <? h))). split.
  - destruct (Z.ltb_spec x x'), (Z.ltb_spec y y'); rewrite !isub_ok by lia; cbn [obind]; reflexivity.
  - split.
    + intros E. exists (Z.max x x'), (Z.max y y'). destruct (Z.ltb_spec x x'), (Z.ltb_spec y y'); lia.
    + intros (a & d & E). destruct (Z.ltb_spec x x'), (Z.ltb_spec y y'); lia.
Qed.

(* No overflow.  True with the intersection stored if it is not empty, otherwise false
   with the box unchanged. *)
Theorem box_clip_exact_partial : forall b c, valid_box b -> valid_box c -> near b c ->
  exists r c', clip b c = Some (r, c') /\ valid_box c' /\
    (r = true <-> exists x y, in_box b x y /\ in_box c x y) /\
    (r = true -> forall x y, in_box c' x y <-> in_box b x y /\ in_box c x y) /\
    (r = true -> corners_within b c' /\ corners_within c c') /\
    (r = false -> c' = c).
Proof.
  intros [[x y] [w h]] [[x' y'] [w' h']] Hb Hc Hn.
  unfold valid_box, near, clip, in_box, corners_within in *. cbn [bpos bsize px py width height] in *.
  assert (Hd : forall p s op os, - 2 ^ 31 <= p -> 0 <= s < 2 ^ 31 -> p + s < 2 ^ 31 ->
    - 2 ^ 31 <= op -> 0 <= os < 2 ^ 31 -> op + os < 2 ^ 31 -> Z.abs (p - op) < 2 ^ 31 ->
    exists r, clip_dim p s op os = Some r /\
      match r with
      | None => forall z, ~ (p <= z < p + s /\ op <= z < op + os)
      | Some (q, t) => 0 < t /\ q = Z.max p op /\ q + t = Z.min (p + s) (op + os)
      end).
  { intros. unfold clip_dim. destruct (Z.leb_spec p op).
    - rewrite (isub_ok op p) by lia. cbn [obind]. rewrite isub_ok by lia. cbn [obind].
      destruct ((s - (op - p) <=? 0) || (os <=? 0)) eqn:E; eexists; (split; [reflexivity|]); cbn; lia.
    - rewrite (isub_ok p op) by lia. cbn [obind]. rewrite isub_ok by lia. cbn [obind].
      destruct ((os - (p - op) <=? 0) || (s <=? 0)) eqn:E; eexists; (split; [reflexivity|]); cbn; lia. }
  destruct (Hd x w x' w') as (rx & Ex & Kx); try lia. rewrite Ex. cbn [obind].
  destruct rx as [[q t]|].
  2: { exists false. eexists. split; [reflexivity|]. cbn [bpos bsize px py width height]. split; [lia|].
       split. { split; [discriminate|]. intros (a & d & E). exfalso. apply (Kx a). lia. }
       split; [discriminate|]. split; [discriminate|reflexivity]. }
  destruct (Hd y h y' h') as (ry & Ey & Ky); try lia. rewrite Ey. cbn [obind].
  destruct ry as [[q' t']|].
  2: { exists false. eexists. split; [reflexivity|]. cbn [bpos bsize px py width height]. split; [lia|].
       split. { split; [discriminate|]. intros (a & d & E). exfalso. apply (Ky d). lia. }
       split; [discriminate|]. split; [discriminate|reflexivity]. }
  exists true. eexists. split; [reflexivity|]. cbn [bpos bsize px py width height]. split; [lia|].
  split. { split; [|reflexivity]. intros _. exists q, q'. lia. }
  split. { intros _ a d. lia. } split; [lia|discriminate].
Qed.

Example box_clip_ex :
  let b := Box (Pos 10 (-5)) (Size 20 10) in let c := Box (Pos 5 0) (Size 100 100) in
  valid_box b /\ valid_box c /\ near b c /\ box_valid b = true /\
  clip b c = Some (true, Box (Pos 10 0) (Size 20 5)) /\ intersects b c = Some true /\
  clip b (Box (Pos 30 0) (Size 1 1)) = Some (false, Box (Pos 30 0) (Size 1 1)) /\
  intersects b (Box (Pos 15 0) (Size 0 5)) = Some false.
Proof. cbv zeta. unfold valid_box, near. cbn [bpos bsize px py width height]. repeat (split; [try lia; reflexivity|]). reflexivity. Qed.

(* Without the restriction on distances these functions overflow. *)
Definition far_1 := Box (Pos (- 2 ^ 31) 0) (Size (2 ^ 31 - 1) 1).
Definition far_2 := Box (Pos 1 0) (Size 1 1).

Theorem box_clip_exact_refuted :
  ~ (forall b c, valid_box b -> valid_box c -> exists r, clip b c = Some r) /\
  ~ (forall b c, valid_box b -> valid_box c -> exists r, intersects b c = Some r) /\
  ~ (forall b c, valid_box b -> valid_box c -> exists r, contains b c = Some r).
Proof.
  split; [|split]; intros H; destruct (H far_1 far_2) as [r Hr];
    try (unfold valid_box; cbn; lia); vm_compute in Hr; discriminate.
Qed.

(* ---- C59: containment ---- *)

Theorem box_contains_exact_partial : forall b c, valid_box b -> valid_box c -> near b c ->
  exists r, contains b c = Some r /\ contained_in c b = Some r /\ (r = true <-> corners_within b c) /\
    (r = true -> forall x y, in_box c x y -> in_box b x y) /\
    ((forall x y, in_box c x y -> in_box b x y) -> (exists x y, in_box c x y) -> r = true).
Proof.
  intros [[x y] [w h]] [[x' y'] [w' h']] Hb Hc Hn.
  unfold contained_in.
  unfold valid_box, near, contains, contains_dim, in_box, corners_within in *. cbn [bpos bsize px py width height] in *.
  exists (((x <=? x') && (w' <=? w) && (x' - x <=? w - w')) && ((y <=? y') && (h' <=? h) && (y' - y <=? h - h'))).
  assert (E : forall p s op os, - 2 ^ 31 <= p -> 0 <= s < 2 ^ 31 -> p + s < 2 ^ 31 ->
    - 2 ^ 31 <= op -> 0 <= os < 2 ^ 31 -> op + os < 2 ^ 31 -> Z.abs (p - op) < 2 ^ 31 ->
    (if (p <=? op) && (os <=? s) then let? d := isub op p in let? r := isub s os in Some (d <=? r) else Some false) =
    Some ((p <=? op) && (os <=? s) && (op - p <=? s - os))).
  { intros. destruct ((p <=? op) && (os <=? s)); [|reflexivity]. rewrite !isub_ok by lia. reflexivity. }
  rewrite !E by lia. cbn [obind]. split; [reflexivity|]. split; [reflexivity|].
  split; [lia|]. split; [lia|].
  intros H (a & d & Ha). pose proof (H x' y'). pose proof (H (x' + w' - 1) (y' + h' - 1)). lia.
Qed.

Theorem contains_pixel_at_exact_partial : forall b x y, valid_box b ->
  - 2 ^ 31 <= x < 2 ^ 31 -> - 2 ^ 31 <= y < 2 ^ 31 ->
  Z.abs (px (bpos b) - x) < 2 ^ 31 -> Z.abs (py (bpos b) - y) < 2 ^ 31 ->
  exists r, contains_pixel_at b (Pos x y) = Some r /\ (r = true <-> in_box b x y).
Proof.
  intros [[x y] [w h]] x' y' Hb Hx Hy Dx Dy. unfold contains_pixel_at, contains, contains_dim.
  unfold valid_box, in_box in *. cbn [bpos bsize px py width height] in *.
  exists (((x <=? x') && (1 <=? w) && (x' - x <=? w - 1)) && ((y <=? y') && (1 <=? h) && (y' - y <=? h - 1))).
  split; [|lia].
  assert (E : forall p s op, - 2 ^ 31 <= p -> 0 <= s < 2 ^ 31 -> p + s < 2 ^ 31 -> Z.abs (p - op) < 2 ^ 31 ->
    (if (p <=? op) && (1 <=? s) then let? d := isub op p in let? r := isub s 1 in Some (d <=? r) else Some false) =
    Some ((p <=? op) && (1 <=? s) && (op - p <=? s - 1))).
  { intros. destruct ((p <=? op) && (1 <=? s)); [|reflexivity]. rewrite !isub_ok by lia. reflexivity. }
  rewrite !E by lia. reflexivity.
Qed.

Example box_contains_ex :
  let b := Box (Pos 10 (-5)) (Size 20 10) in
  contains b (Box (Pos 12 0) (Size 18 5)) = Some true /\ contains b (Box (Pos 12 0) (Size 19 5)) = Some false /\
  contains_pixel_at b (Pos 29 4) = Some true /\ contains_pixel_at b (Pos 29 5) = Some false.
Proof. vm_compute. auto. Qed.

(* The comparison operators are those of a total order. *)
Theorem box_order : forall a b c,
  box_ltb a a = false /\ (box_ltb a b = true -> box_ltb b c = true -> box_ltb a c = true) /\
  (box_eqb a b = true <-> a = b) /\
  (box_ltb a b = false -> box_ltb b a = false -> a = b).
Proof.
  intros [[x y] [w h]] [[x' y'] [w' h']] [[x2 y2] [w2 h2]].
  unfold box_ltb, box_eqb, pos_ltb, pos_eqb, size_ltb, size_eqb. cbn [bpos bsize px py width height].
  split; [lia|]. split; [lia|]. split.
  - split; intros E; [|injection E; lia].
    assert (x = x' /\ y = y' /\ w = w' /\ h = h') as (-> & -> & -> & ->) by lia. reflexivity.
  - intros E1 E2. assert (x = x' /\ y = y' /\ w = w' /\ h = h') as (-> & -> & -> & ->) by lia. reflexivity.
Qed.

Example box_order_ex : box_ltb (Box (Pos 1 2) (Size 9 9)) (Box (Pos 1 3) (Size 0 0)) = true.
Proof. reflexivity. Qed.

Print Assumptions box_valid_exact.
Print Assumptions box_empty_exact.
Print Assumptions box_intersects_exact_partial.
Print Assumptions box_clip_exact_partial.
Print Assumptions box_clip_exact_refuted.
Print Assumptions box_contains_exact_partial.
Print Assumptions contains_pixel_at_exact_partial.
Print Assumptions box_order.
