(* Independent specification of packed pixels. *)
From Coq Require Import ZArith Bool List.
From Verif Require Import CInt BitMediumSpec PixelBufSpec PackedPixelModel.
From Verif Require PixelBoxModel.
Import ListNotations.
Open Scope Z_scope.

(* the number of bits taken up by the fields and their gaps *)
Fixpoint total (fs : list bit_field) : Z :=
  match fs with [] => 0 | f :: fs => fwidth f + fgap f + total fs end.

Definition field_ok (f : bit_field) : Prop := 1 <= fwidth f /\ 0 <= fgap f.

(* The number whose fields, listed with the most significant first, have the given
   values.  Below each field there is a gap of zeros. *)
Fixpoint compound (fs : list bit_field) (vs : list Z) : Z :=
  match fs, vs with
  | f :: fs, v :: vs => v * 2 ^ (fgap f + total fs) + compound fs vs
  | _, _ => 0
  end.

(* the values of the fields of a number, and of gaps if these are not zero *)
Fixpoint field_values (fs : list bit_field) (p : Z) : list Z :=
  match fs with
  | [] => []
  | f :: fs => (p / 2 ^ (fgap f + total fs)) mod 2 ^ fwidth f :: field_values fs p
  end.

(* From canonical channel order, where an alpha channel is last, to the order of fields,
   and back. *)
Definition to_field_order {A} (alpha_first reverse : bool) (cs : list A) : list A :=
  let cs := if alpha_first then skipn (length cs - 1) cs ++ firstn (length cs - 1) cs else cs in
  if reverse then rev cs else cs.
Definition to_canonical_order {A} (alpha_first reverse : bool) (cs : list A) : list A :=
  let cs := if reverse then rev cs else cs in
  if alpha_first then skipn 1 cs ++ firstn 1 cs else cs.

(* elementwise *)
Fixpoint map2 {A B C} (g : A -> B -> C) (a : list A) (b : list B) : list C :=
  match a, b with x :: a, y :: b => g x y :: map2 g a b | _, _ => [] end.

(* field values from transfer component values of n bits, and back *)
Definition to_fields (n : Z) (fs : list bit_field) (cs : list Z) : list Z :=
  map2 (fun f c => unit_scale n (fwidth f) c) fs cs.
Definition from_fields (n : Z) (fs : list bit_field) (vs : list Z) : list Z :=
  map2 (fun f v => unit_scale (fwidth f) n v) fs vs.

(* A format that satisfies the static assertions and has n-bit transfer components: all
   types are builtin integer types, and the numbers in the fields are of type int. *)
Record format_ok (f : packed_format) (n : Z) : Prop := {
  fo_S : ity_ok (pf_S f);
  fo_W : ity_ok (pf_W f);
  fo_T8 : ity_ok (pf_T8 f) /\ 8 <= iwidth (pf_T8 f);
  fo_T16 : ity_ok (pf_T16 f) /\ 16 <= iwidth (pf_T16 f);
  fo_int : Forall (fun g => in_range t_int (fwidth g) /\ in_range t_int (fgap g)) (pf_fields f);
  fo_static : static_ok f = true;
  fo_n : transf_width f = Some n
}.

(* the values of the channels of a pixel, in canonical order and as n-bit numbers, and
   the number that represents the pixel in the buffer *)
Definition channels (f : packed_format) (n p : Z) : list Z :=
  to_canonical_order (pf_alpha f && pf_alpha_first f) (pf_reverse f)
    (from_fields n (pf_fields f) (field_values (pf_fields f) p)).
Definition represent (f : packed_format) (n : Z) (cs : list Z) : Z :=
  compound (pf_fields f)
    (to_fields n (pf_fields f) (to_field_order (pf_alpha f && pf_alpha_first f) (pf_reverse f) cs)).

(* one n-bit number for each channel *)
Definition channels_ok (f : packed_format) (n : Z) (cs : list Z) : Prop :=
  length cs = length (pf_fields f) /\ Forall (fun c => 0 <= c < 2 ^ n) cs.

(* a pixel of a tray *)
Definition tray_pixel (f : packed_format) (n : Z) (cs : list Z) : list Z := map (packed_form (transf_type f) n) cs.

(* bit number k belongs to a field *)
Definition in_field (fs : list bit_field) (k : Z) : Prop :=
  exists a g b, fs = a ++ g :: b /\ fgap g + total b <= k < fgap g + total b + fwidth g.

(* all bits that belong to no field are zero *)
Definition unused_zero (fs : list bit_field) (p : Z) : Prop :=
  forall k, 0 <= k -> Z.testbit p k = true -> in_field fs k.

(* The image in a buffer: pixel (x, y) is the number img x y. *)
Definition holds_image (f : packed_format) (s : PixelBoxModel.size) (buf : list Z) (img : Z -> Z -> Z) : Prop :=
  Z.of_nat (length buf) = PixelBoxModel.width s * PixelBoxModel.height s * pf_D f /\
  forall x y, 0 <= x < PixelBoxModel.width s -> 0 <= y < PixelBoxModel.height s ->
    0 <= img x y < 2 ^ (pf_B f * pf_D f) /\
    stored (pf_W f) (pf_B f) (pf_D f) (pf_little f) buf ((y * PixelBoxModel.width s + x) * pf_D f) (img x y).
