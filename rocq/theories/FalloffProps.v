(* Theorems on reading inside and outside of the boundary of an image, and on clipped
   writing *)
From Coq Require Import ZArith Bool List Lia.
From Verif Require Import CInt IntModel PixelBoxModel PixelBoxSpec.
From Verif Require Import FalloffModel FalloffSpec FalloffProofs FalloffProofs2 FalloffProofs3 FalloffProofs4.
Import ListNotations.
Open Scope Z_scope.

(* A box is divided into a partition of it, without overflow, and with at most 4096 pixels
   in each part. *)
Theorem subdivide_exact : forall b, valid_box b ->
  exists l, subdivide b = Some l /\ partition b l /\
    forall c, In c l -> width (bsize c) * height (bsize c) <= 4096 /\
      ((exists x y, in_box b x y) -> exists x y, in_box c x y).
Proof.
  intros b Hv. destruct (subdivide_ok b Hv) as (l & E & Hp & Hf). exists l. split; [exact E|]. split; [exact Hp|].
  intros c Hc. destruct (Hf c Hc) as (_ & _ & Ha & Hn). split; [exact Ha|].
  intros (x & y & Hb). unfold in_box in Hb. destruct Hn as [N1 N2]; [lia|].
  exists (px (bpos c)), (py (bpos c)). unfold in_box. lia.
Qed.

Example subdivide_ex :
  valid_box (Box (Pos (-3) (- 2 ^ 31)) (Size 200 70)) /\
  subdivide (Box (Pos (-3) (- 2 ^ 31)) (Size 200 70)) =
    Some [Box (Pos (-3) (- 2 ^ 31)) (Size 64 64); Box (Pos 61 (- 2 ^ 31)) (Size 64 64);
          Box (Pos 125 (- 2 ^ 31)) (Size 64 64); Box (Pos 189 (- 2 ^ 31)) (Size 8 64);
          Box (Pos (-3) (64 - 2 ^ 31)) (Size 200 6)].
Proof. split; [unfold valid_box; cbn; lia|vm_compute; reflexivity]. Qed.

Example subdivide_narrow_ex :
  subdivide (Box (Pos 0 0) (Size 30 300)) =
    Some [Box (Pos 0 0) (Size 30 136); Box (Pos 0 136) (Size 30 136); Box (Pos 0 272) (Size 30 28)].
Proof. vm_compute. reflexivity. Qed.

(* The two orders of extension give the same image. *)
Theorem extension_order : forall P (s : source P) hm vm bg x y, source_ok s ->
  extended s hm vm bg x y = extended_alt s hm vm bg x y.
Proof.
  intros P s hm vm bg x y ((S1 & S2) & (S3 & S4)).
  destruct (Z.eq_dec (width (source_size s)) 0) as [Ew|Ew]; [unfold extended, extended_alt; rewrite Ew; reflexivity|].
  destruct (Z.eq_dec (height (source_size s)) 0) as [Eh|Eh];
    [unfold extended, extended_alt; rewrite Eh, Z.eqb_refl, orb_true_r; reflexivity|].
  rewrite extended_pick, extended_alt_pick by lia. reflexivity.
Qed.

(* Reading of a block gives the pixels of the extended image, for any position of the
   block, and nothing outside of the tray is changed. *)
Theorem read_falloff_exact : forall P (s : source P) hm vm bg p t (c : canvas P),
  source_ok s -> int_pos p -> tray_ok c t ->
  exists c', read_e s hm vm bg p t c = Some c' /\
    tray_becomes c t (fun x y => extended s hm vm bg (px p + x) (py p + y)) c'.
Proof. intros P s hm vm bg p t c. apply read_e_ok. Qed.

Theorem get_block_exact : forall P (s : source P) hm vm bg p t (c : canvas P),
  source_ok s -> valid_box (Box p (tsize t)) -> tray_ok c t ->
  exists c', get_block s hm vm bg p t c = Some c' /\
    tray_becomes c t (fun x y => extended s hm vm bg (px p + x) (py p + y)) c'.
Proof. intros P s hm vm bg p t c. apply get_block_ok. Qed.

(* the example in the documentation: reader.hpp:682-720 *)
Definition ex_image : source Z := Direct (Canvas 3 3 (fun x y => 1 + x + 3 * y)).
Definition ex_rows (c : option (canvas Z)) : option (list (list Z)) :=
  match c with
  | Some c => Some (map (fun y => map (fun x => cpix c (Z.of_nat x) (Z.of_nat y)) (seq 0 (Z.to_nat (cw c))))
                        (seq 0 (Z.to_nat (ch c))))
  | None => None
  end.
Definition ex_canvas : canvas Z := Canvas 5 4 (fun _ _ => -1).

Example read_doc_ex :
  source_ok ex_image /\ int_pos (Pos 1 1) /\ tray_ok ex_canvas (Tray 1 0 (Size 4 3)) /\
  ex_rows (read_e ex_image Background Background 0 (Pos 1 1) (Tray 1 0 (Size 4 3)) ex_canvas) =
    Some [[-1; 5; 6; 0; 0]; [-1; 8; 9; 0; 0]; [-1; 0; 0; 0; 0]; [-1; -1; -1; -1; -1]] /\
  ex_rows (read_e ex_image Edge Edge 0 (Pos 1 1) (Tray 1 0 (Size 4 3)) ex_canvas) =
    Some [[-1; 5; 6; 6; 6]; [-1; 8; 9; 9; 9]; [-1; 8; 9; 9; 9]; [-1; -1; -1; -1; -1]] /\
  ex_rows (read_e ex_image Repeat Repeat 0 (Pos 1 1) (Tray 1 0 (Size 4 3)) ex_canvas) =
    Some [[-1; 5; 6; 4; 5]; [-1; 8; 9; 7; 8]; [-1; 2; 3; 1; 2]; [-1; -1; -1; -1; -1]] /\
  ex_rows (get_block ex_image Repeat Background 0 (Pos (- 2 ^ 31) (-1)) (Tray 0 0 (Size 5 4)) ex_canvas) =
    Some [[0; 0; 0; 0; 0]; [2; 3; 1; 2; 3]; [5; 6; 4; 5; 6]; [8; 9; 7; 8; 9]].
Proof.
  split; [unfold source_ok, int_size; cbn; lia|]. split; [unfold int_pos; cbn; lia|].
  split; [unfold tray_ok, int_size; cbn; lia|]. repeat (split; [vm_compute; reflexivity|]). vm_compute. reflexivity.
Qed.

(* an image with indexed color, and with an index that is not in the palette *)
Definition ex_indexed : source Z := Indexed (Canvas 2 1 (fun x _ => if x =? 0 then 1%nat else 7%nat)) [10; 20].

Example read_indexed_ex :
  source_ok ex_indexed /\
  ex_rows (read_e ex_indexed Edge Edge 99 (Pos (-2) (-1)) (Tray 0 0 (Size 5 4)) ex_canvas) =
    Some [[20; 20; 20; 99; 99]; [20; 20; 20; 99; 99]; [20; 20; 20; 99; 99]; [20; 20; 20; 99; 99]].
Proof. split; [unfold source_ok, int_size; cbn; lia|vm_compute; reflexivity]. Qed.

(* Writing: exactly the pixels in the part of the area that overlaps with the image are
   changed, each of them once, and to what the corresponding pixel gives. *)
Theorem writer_fill_exact : forall R P (ops : pixel_ops R P) no_blending junk raw color area (img : canvas R),
  int_size (Size (cw img) (ch img)) -> int_size (bsize area) -> legal_pos (bpos area) ->
  exists img', writer_fill ops no_blending junk raw color area img = Some img' /\
    area_becomes img area (fun _ _ old => if no_blending then raw else paint ops true (fade ops color) old) img'.
Proof. intros R P ops no_blending junk raw color area img. apply fill_area_ok. Qed.

Theorem put_image_exact : forall R P (ops : pixel_ops R P) lossless blending copy junk (s : source P) hm vm bg p b
  (img : canvas R),
  int_size (Size (cw img) (ch img)) -> source_ok s -> valid_box b -> legal_pos p ->
  exists img', put_image ops lossless blending copy junk s hm vm bg p b img = Some img' /\
    area_becomes img (Box p (bsize b)) (fun x y old =>
      let q := extended s hm vm bg (px (bpos b) + (x - px p)) (py (bpos b) + (y - py p)) in
      if lossless then copy q else paint ops blending (fade ops q) old) img'.
Proof. intros R P ops lossless blending copy junk s hm vm bg p b img. apply put_image_ok. Qed.

Theorem put_block_exact : forall Q R P (ops : pixel_ops R P) direct blending (copy : Q -> R) (conv : Q -> P) junk p
  (block : canvas Q) t (img : canvas R),
  int_size (Size (cw img) (ch img)) -> tray_ok block t -> legal_pos p ->
  exists img', put_block ops direct blending copy conv junk p block t img = Some img' /\
    area_becomes img (Box p (tsize t)) (fun x y old =>
      let q := cpix block (tx t + (x - px p)) (ty t + (y - py p)) in
      if direct then copy q else paint ops blending (fade ops (conv q)) old) img'.
Proof. intros Q R P ops direct blending copy conv junk p block t img. apply put_block_ok. Qed.

Definition ex_ops : pixel_ops Z Z := PixelOps Z Z (fun v => v) (fun v => v) (fun a b => 100 * a + b) (fun v => v + 1).

Example writer_ex :
  int_size (Size 5 4) /\ legal_pos (Pos 3 (-1)) /\ valid_box (Box (Pos 2 0) (Size 7 3)) /\
  ex_rows (writer_fill ex_ops false (fun _ _ => 0) 7 7 (Box (Pos 3 (-1)) (Size (2 ^ 31 - 1) 3)) ex_canvas) =
    Some [[-1; -1; -1; 799; 799]; [-1; -1; -1; 799; 799]; [-1; -1; -1; -1; -1]; [-1; -1; -1; -1; -1]] /\
  ex_rows (put_image ex_ops false true (fun v => v) (fun _ _ => 0) ex_image Edge Repeat 0 (Pos 3 (-1))
             (Box (Pos 2 0) (Size 7 3)) ex_canvas) =
    Some [[-1; -1; -1; 699; 699]; [-1; -1; -1; 999; 999]; [-1; -1; -1; -1; -1]; [-1; -1; -1; -1; -1]] /\
  ex_rows (put_block ex_ops true true (fun v => v) (fun v => v) (fun _ _ => 0) (Pos (-1) 3)
             (Canvas 3 3 (fun x y => 1 + x + 3 * y)) (Tray 0 1 (Size 3 2)) ex_canvas) =
    Some [[-1; -1; -1; -1; -1]; [-1; -1; -1; -1; -1]; [-1; -1; -1; -1; -1]; [5; 6; -1; -1; -1]].
Proof.
  split; [unfold int_size; cbn; lia|]. split; [unfold legal_pos, int_pos; cbn; lia|].
  split; [unfold valid_box; cbn; lia|]. repeat (split; [vm_compute; reflexivity|]). vm_compute. reflexivity.
Qed.

(* At the lowest position, the clipping overflows, although the area is allowed to lie
   outside of the image. *)
Definition low_box : box := Box (Pos (- 2 ^ 31) 0) (Size 1 1).

Theorem writer_lowest_refuted :
  valid_box low_box /\ int_size (Size (cw ex_canvas) (ch ex_canvas)) /\
  (forall no_blending junk raw color, writer_fill ex_ops no_blending junk raw color low_box ex_canvas = None) /\
  (forall lossless blending copy junk (s : source Z) hm vm bg,
     put_image ex_ops lossless blending copy junk s hm vm bg (bpos low_box) (Box (Pos 0 0) (Size 1 1)) ex_canvas = None) /\
  (forall direct blending (copy conv : Z -> Z) junk,
     put_block ex_ops direct blending copy conv junk (bpos low_box) ex_canvas (Tray 0 0 (Size 1 1)) ex_canvas = None).
Proof.
  split; [unfold valid_box; cbn; lia|]. split; [unfold int_size; cbn; lia|].
  split; [|split]; intros; [unfold writer_fill|unfold put_image|unfold put_block];
    match goal with |- context [clip ?a ?b] => replace (clip a b) with (@None (bool * box)) by (vm_compute; reflexivity) end;
    reflexivity.
Qed.

Print Assumptions subdivide_exact.
Print Assumptions extension_order.
Print Assumptions read_falloff_exact.
Print Assumptions get_block_exact.
Print Assumptions writer_fill_exact.
Print Assumptions put_image_exact.
Print Assumptions put_block_exact.
Print Assumptions writer_lowest_refuted.
