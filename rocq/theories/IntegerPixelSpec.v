(* Independent specification of integer pixels. *)
From Coq Require Import ZArith Bool List.
From Verif Require Import CInt BitMediumSpec PixelBufSpec PackedPixelSpec IntegerPixelModel.
From Verif Require PixelBoxModel.
Import ListNotations.
Open Scope Z_scope.

(* a format that satisfies the static assertions *)
Record i_format_any (f : integer_format) : Prop := {
  ia_S : ity_ok (if_S f);
  ia_W : ity_ok (if_W f);
  ia_N : 1 <= if_N f < 2 ^ 31;
  ia_static : i_static_ok f = true
}.

(* in addition, it has n-bit transfer components *)
Record i_format_ok (f : integer_format) (n : Z) : Prop := {
  io_any : i_format_any f;
  io_T8 : ity_ok (if_T8 f) /\ 8 <= iwidth (if_T8 f);
  io_T16 : ity_ok (if_T16 f) /\ 16 <= iwidth (if_T16 f);
  io_same : if_same f = true -> i_transf_type f = if_W f;
  io_n : i_transf_width f = Some n
}.

Notation i_order_to g f := (to_field_order (if_alpha f && if_alpha_first f) (if_reverse f) g).

(* The words from the given position on hold the given components, which are listed in
   canonical channel order. *)
Definition i_stored (f : integer_format) (buf : list Z) (off : Z) (cs : list Z) : Prop :=
  length cs = Z.to_nat (if_N f) /\
  forall j v, nth_error (i_order_to cs f) j = Some v ->
    stored (if_W f) (if_B f) (if_D f) (if_little f) buf (off + Z.of_nat j * if_D f) v.

(* one number of the given number of bits for each channel *)
Definition i_channels_ok (f : integer_format) (bits : Z) (cs : list Z) : Prop :=
  length cs = Z.to_nat (if_N f) /\ Forall (fun c => 0 <= c < 2 ^ bits) cs.

(* a pixel of a tray *)
Definition i_tray_pixel (f : integer_format) (n : Z) (cs : list Z) : list Z := map (packed_form (i_transf_type f) n) cs.

(* the image in a buffer: pixel (x, y) has the components img x y *)
Definition i_holds_image (f : integer_format) (s : PixelBoxModel.size) (buf : list Z) (img : Z -> Z -> list Z) : Prop :=
  Z.of_nat (length buf) = PixelBoxModel.width s * PixelBoxModel.height s * (if_N f * if_D f) /\
  forall x y, 0 <= x < PixelBoxModel.width s -> 0 <= y < PixelBoxModel.height s ->
    i_channels_ok f (if_B f * if_D f) (img x y) /\
    i_stored f buf ((y * PixelBoxModel.width s + x) * (if_N f * if_D f)) (img x y).
