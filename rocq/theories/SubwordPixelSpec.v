(* Independent specification of subword and indexed pixels. *)
From Coq Require Import ZArith Bool List.
From Verif Require Import CInt BitMediumSpec PixelBufSpec RunSpec.
From Verif Require Import PackedPixelModel PackedPixelSpec SubwordPixelModel.
From Verif Require PixelBoxModel.
Import ListNotations.
Open Scope Z_scope.

(* The pixel at position p of a word or compound that has room for N pixels of M bits.
   The first pixel is in the least significant bits if little. *)
Definition pixel_in (M N : Z) (little : bool) (c p : Z) : Z :=
  digit M (if little then p else N - 1 - p) c.

(* ---- subword formats ---- *)

(* a format that satisfies the static assertions and has n-bit transfer components *)
Record s_format_ok (f : subword_format) (n : Z) : Prop := {
  so_W : ity_ok (sf_W f);
  so_C : 1 <= sf_C f < 2 ^ 31;
  so_T8 : ity_ok (sf_T8 f) /\ 8 <= iwidth (sf_T8 f);
  so_T16 : ity_ok (sf_T16 f) /\ 16 <= iwidth (sf_T16 f);
  so_static : s_static_ok f = true;
  so_n : s_transf_width f = Some n
}.

(* a field of B bits for each channel, no gaps *)
Definition s_fields (f : subword_format) : list bit_field := repeat (BitField (sf_B f) 0) (Z.to_nat (sf_C f)).

(* the values of the channels of a pixel, in canonical order and as n-bit numbers, and
   the number that represents the pixel *)
Definition s_channels (f : subword_format) (n q : Z) : list Z :=
  to_canonical_order (sf_alpha f && sf_alpha_first f) (sf_reverse f)
    (map (unit_scale (sf_B f) n) (field_values (s_fields f) q)).
Definition s_represent (f : subword_format) (n : Z) (cs : list Z) : Z :=
  compound (s_fields f)
    (map (unit_scale n (sf_B f)) (to_field_order (sf_alpha f && sf_alpha_first f) (sf_reverse f) cs)).

(* one n-bit number for each channel *)
Definition s_channels_ok (f : subword_format) (n : Z) (cs : list Z) : Prop :=
  length cs = Z.to_nat (sf_C f) /\ Forall (fun c => 0 <= c < 2 ^ n) cs.

(* a pixel of a tray *)
Definition s_tray_pixel (f : subword_format) (n : Z) (cs : list Z) : list Z := map (packed_form (s_transf_type f) n) cs.

(* a buffer holds words, and the pixels in these *)
Definition s_holds (f : subword_format) (s : PixelBoxModel.size) : list Z -> (Z -> Z) -> Prop :=
  holds_all 1 (fun buf o c => word buf o = Some (packed_form (sf_W f) (sf_N f * (sf_C f * sf_B f)) c))
    (fun c => 0 <= c < 2 ^ (sf_N f * (sf_C f * sf_B f))) (num_compounds (sf_aligned f) (sf_N f) s).
Definition s_pixel_in (f : subword_format) : Z -> Z -> Z := pixel_in (sf_C f * sf_B f) (sf_N f) (sf_little f).

(* the number in the slot of pixel (x, y) *)
Definition s_pixel (f : subword_format) (s : PixelBoxModel.size) (comps : Z -> Z) (x y : Z) : Z :=
  pixel Z (sf_N f) (s_pixel_in f) comps (slot (sf_aligned f) (sf_N f) (PixelBoxModel.width s) x y).

(* the given pixels have been put at p, and no others have changed *)
Definition s_put (f : subword_format) (s : PixelBoxModel.size) (p : PixelBoxModel.pos) (t : PixelBoxModel.size)
  : (Z -> Z -> Z) -> (Z -> Z) -> (Z -> Z) -> Prop :=
  tray_put Z (sf_N f) (sf_aligned f) (s_pixel_in f) s p t 0.

(* ---- indexed formats ---- *)

(* a format that satisfies the static assertions *)
Record x_format_ok (f : indexed_format) : Prop := {
  xo_S : ity_ok (xf_S f) /\ iwidth (xf_S f) < 2 ^ 31;
  xo_W : ity_ok (xf_W f);
  xo_T8 : ity_ok (xf_T8 f) /\ 8 <= iwidth (xf_T8 f);
  xo_static : x_static_ok f = true
}.

Definition x_holds (f : indexed_format) (s : PixelBoxModel.size) : list Z -> (Z -> Z) -> Prop :=
  holds_all (xf_D f) (stored (xf_W f) (xf_B f) (xf_D f) (xf_little f))
    (fun c => 0 <= c < 2 ^ (xf_B f * xf_D f)) (num_compounds (xf_aligned f) (xf_N f) s).
Definition x_pixel_in (f : indexed_format) : Z -> Z -> Z := pixel_in (xf_M f) (xf_N f) (xf_bit_little f).

Definition x_pixel (f : indexed_format) (s : PixelBoxModel.size) (comps : Z -> Z) (x y : Z) : Z :=
  pixel Z (xf_N f) (x_pixel_in f) comps (slot (xf_aligned f) (xf_N f) (PixelBoxModel.width s) x y).
Definition x_put (f : indexed_format) (s : PixelBoxModel.size) (p : PixelBoxModel.pos) (t : PixelBoxModel.size)
  : (Z -> Z -> Z) -> (Z -> Z) -> (Z -> Z) -> Prop :=
  tray_put Z (xf_N f) (xf_aligned f) (x_pixel_in f) s p t 0.
