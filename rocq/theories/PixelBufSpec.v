(* Independent specification of pixel buffers. *)
From Coq Require Import ZArith Bool List.
From Verif Require Import CInt BitMediumSpec PixelBoxModel PixelBoxSpec.
Open Scope Z_scope.

(* digit number i (0 is least significant) of p in base 2^b *)
Definition digit (b i p : Z) : Z := (p / 2 ^ (b * i)) mod 2 ^ b.

(* word number k of a buffer *)
Definition word (buf : list Z) (k : Z) : option Z :=
  if 0 <=? k then nth_error buf (Z.to_nat k) else None.

(* The D words from position off on are the packed forms of the base 2^B digits of p,
   the least significant first if little. *)
Definition stored (W : ity) (B D : Z) (little : bool) (buf : list Z) (off p : Z) : Prop :=
  forall i, 0 <= i < D ->
  word buf (off + i) = Some (packed_form W B (digit B (if little then i else D - 1 - i) p)).

(* an image size that fits ints *)
Definition image_ok (s : size) : Prop := 0 <= width s < 2 ^ 31 /\ 0 <= height s < 2 ^ 31.

(* the tray of the given size at p covers the pixel (x, y) *)
Definition covers (p : pos) (s : size) (x y : Z) : Prop := in_box (Box p s) x y.

(* a tray of the given size at p is within the image *)
Definition within (p : pos) (s image_size : size) : Prop :=
  0 <= px p /\ 0 <= py p /\ 0 <= width s /\ 0 <= height s /\
  px p + width s <= width image_size /\ py p + height s <= height image_size.

(* a, a + 1, ..., a + n - 1 *)
Definition zseq (a : Z) (n : nat) : list Z := map (fun i => a + Z.of_nat i) (seq 0 n).
