(* Model of pixels as sequences of words in MultPixelFormat (display/noinst/mult_pixel_format.hpp) *)
From Coq Require Import ZArith Bool List.
From Verif Require Import MultFieldModel ArrLib.
Import ListNotations.
Local Open Scope Z_scope.

(* MultPixelFormat: display/noinst/mult_pixel_format.hpp:119-187: bits_per_word, words_per_pixel, word_order, and the field
   specification, whose compound type has fs_bits bits.  Simplification: the word type is unsigned and has at least
   bits_per_word bits, so pack_int() and unpack_int() are plain conversions (image/bit_medium.hpp:172-173, 195-196). *)
Record mpf := Mpf { bits_per_word : Z; words_per_pixel : nat; little : bool; m_field_spec : fspec }.

(* map_word_index: mult_pixel_format.hpp:477-490; None if the assertion fails *)
Definition map_word_index (f : mpf) (i : nat) : option nat :=
  let n := words_per_pixel f in
  if Nat.ltb i n then Some (if little f then i else (n - 1 - i)%nat) else None.

(* get_pixel_ptr: mult_pixel_format.hpp:338-353; the index of the first word of the pixel, for positions inside the image.
   Simplification: the arithmetic does not overflow, as the buffer exists. *)
Definition pixel_index (f : mpf) (image_width x y : nat) : nat := ((y * image_width + x) * words_per_pixel f)%nat.

(* shifting is undefined unless the shift is less than the number of bits of the compound type *)
Definition shift_ok (f : mpf) (shift : Z) : bool := (0 <=? shift) && (shift <? fs_bits (m_field_spec f)).

(* read_pixel, the loop at mult_pixel_format.hpp:361-364, for the last n words *)
Fixpoint assemble_words (f : mpf) (n i : nat) (buffer : list Z) (source : nat) (compound : Z) : option Z :=
  match n with
  | O => Some compound
  | S n =>
      let? j := map_word_index f i in
      let shift := Z.of_nat j * bits_per_word f in
      let? word := nth_error buffer (source + i) in
      if shift_ok f shift then
        assemble_words f n (S i) buffer source (Z.lor compound (wrapu (m_field_spec f) (Z.shiftl word shift)))
      else None
  end.

(* write_pixel, the loop at mult_pixel_format.hpp:410-414, for the last n words *)
Fixpoint split_words (f : mpf) (n i : nat) (buffer : list Z) (target : nat) (compound : Z) : option (list Z) :=
  match n with
  | O => Some buffer
  | S n =>
      let? j := map_word_index f i in
      let shift := Z.of_nat j * bits_per_word f in
      if shift_ok f shift then
        let value := Z.land (Z.shiftr compound shift) (Z.ones (bits_per_word f)) in
        let? buffer := set_nth buffer (target + i) value in
        split_words f n (S i) buffer target compound
      else None
  end.

(* read_pixel: mult_pixel_format.hpp:356-383, up to the components (368); the conversion of components is not included.
   The array of components is uninitialized, and has the given contents. *)
Definition read_pixel (f : mpf) (buffer : list Z) (source : nat) (init : list Z) : option (list Z) :=
  let? compound := assemble_words f (words_per_pixel f) 0 buffer source 0 in
  unpack (m_field_spec f) compound init.

(* write_pixel: mult_pixel_format.hpp:386-415, from the components (405-414) *)
Definition write_pixel (f : mpf) (buffer : list Z) (target : nat) (components : list Z) : option (list Z) :=
  let? compound := pack (m_field_spec f) components in
  split_words f (words_per_pixel f) 0 buffer target compound.
