(* Model of subword pixel formats (src/archon/image/subword_pixel_format.hpp), where
   several pixels share a word, and of indexed pixel formats
   (src/archon/image/indexed_pixel_format.hpp), where several color indexes share a bit
   compound.  The loops over pixels are in PixelBufModel.v (Runs).

   Reading and writing in subword formats is modelled for formats with transfer in terms
   of integers (bits_per_channel <= 16). *)
From Coq Require Import ZArith Bool List.
From Verif Require Import CInt IntModel.
From Verif Require Import PixelBoxModel BitMediumModel PixelBufModel PackedPixelModel.
From Verif Require Import ArrLib.
Import ListNotations.
Open Scope Z_scope.

(* a ^ b *)
Definition cxor (a b : tv) : tv :=
  let T := uac (fst a) (fst b) in (T, wrap T (Z.lxor (wrap T (snd a)) (wrap T (snd b)))).

(* do_set_pixel: subword_pixel_format.hpp:582-587 with T = bits_per_word, and the last two
   statements of set_pixel: indexed_pixel_format.hpp:598-600 with T = bits_per_compound.
   M is bits_per_pixel, and V is value_type.  shift has been determined by the caller. *)
Definition put_bits (V : ity) (T M : Z) (pixel : Z) (word : Z) (shift : Z) : option Z :=
  let? m1 := int_mask V T in
  let? m2 := int_mask V M in
  let? s := cshl (V, m2) shift in
  let word := wrap V (snd (cand (V, word) (cxor (V, m1) s))) in
  let? q := cshl (V, pixel) shift in
  Some (wrap V (snd (cor (V, word) q))).

(* (word >> shift) & core::int_mask<value_type>(M): subword_pixel_format.hpp:491 and 541-542,
   indexed_pixel_format.hpp:586-587 *)
Definition take_bits (V : ity) (M : Z) (word : Z) (shift : Z) : option Z :=
  let? s := cshr (V, word) shift in
  let? m := int_mask V M in
  Some (wrap V (snd (cand s (V, m)))).

(* map_pixel_pos: subword_pixel_format.hpp:606-617, indexed_pixel_format.hpp:605-616.  n is
   the number of pixels, and little the bit order. *)
Definition map_pixel_pos (n : Z) (little : bool) (pos : Z) : option Z :=
  if (0 <=? pos) && (pos <? n) then Some (if little then pos else (n - 1) - pos) else None.

(* ---- subword formats ---- *)

(* The template parameters of SubwordPixelFormat: subword_pixel_format.hpp:126-143.  T8 and
   T16 are int8_type and int16_type. *)
Record subword_format := SubwordFormat {
  sf_C : Z;                    (* num_channels *)
  sf_W : ity;                  (* word_type *)
  sf_B : Z;                    (* bits_per_channel *)
  sf_N : Z;                    (* pixels_per_word *)
  sf_little : bool;            (* bit_order *)
  sf_alpha : bool;             (* has_alpha_channel *)
  sf_alpha_first : bool;       (* alpha_channel_first *)
  sf_reverse : bool;           (* reverse_channel_order *)
  sf_aligned : bool;           (* word_aligned_rows *)
  sf_T8 : ity;
  sf_T16 : ity
}.

Section Subword.
  Variable f : subword_format.

  (* subword_pixel_format.hpp:142-143 *)
  Definition s_bits_per_pixel : Z := sf_C f * sf_B f.
  Definition s_bits_per_word : Z := sf_N f * s_bits_per_pixel.

  (* the static assertions: subword_pixel_format.hpp:146-150 *)
  Definition s_static_ok : bool :=
    (0 <? sf_B f) && (0 <? sf_N f) && (sf_C f <=? Z.quot (imax t_int) (sf_B f)) &&
    (sf_N f <=? Z.quot (imax t_int) s_bits_per_pixel) && (s_bits_per_word <=? iwidth (sf_W f)).

  (* subword_pixel_format.hpp:166-169 *)
  Definition s_transf_width : option Z := transf_bits (sf_B f).
  Definition s_transf_type : ity := if sf_B f <=? 8 then sf_T8 f else sf_T16 f.

  (* value_type: subword_pixel_format.hpp:206 *)
  Definition s_value_type : ity := unpacked_type (sf_W f) s_bits_per_word.

  (* read_word: subword_pixel_format.hpp:475-478 *)
  Definition read_word (buf : list Z) (source : Z) : option Z :=
    let? w := rd buf source in
    unpack_int s_bits_per_word (sf_W f) w.

  (* write_word: subword_pixel_format.hpp:482-485 *)
  Definition write_word (word : Z) (buf : list Z) (target : Z) : option (list Z) :=
    let? w := pack_int (sf_W f) s_bits_per_word s_value_type word in
    wr buf target w.

  (* map_channel_pos: subword_pixel_format.hpp:591-602 *)
  Definition map_channel_pos (pos : Z) : option Z :=
    let n := sf_C f in
    if (0 <=? pos) && (pos <? n) then
      let pos_2 := pos in
      let pos_2 := if sf_alpha f && sf_alpha_first f then Z.rem (pos_2 + 1) n else pos_2 in
      let pos_2 := if negb (sf_reverse f) then (n - 1) - pos_2 else pos_2 in
      Some pos_2
    else None.

  (* read_comp: subword_pixel_format.hpp:538-554, the integer case *)
  Definition s_read_comp (pixel : Z) (channel : Z) : option Z :=
    let? c := map_channel_pos channel in
    let? comp := take_bits s_value_type (sf_B f) pixel (c * sf_B f) in
    let? n := s_transf_width in
    int_to_int (sf_B f) s_transf_type n s_value_type comp.

  (* get_pixel: subword_pixel_format.hpp:489-504, the case without alpha multiplication *)
  Fixpoint s_read_comps (n : nat) (i : Z) (pixel : Z) : option (list Z) :=
    match n with
    | O => Some []
    | S n =>
      let? c := s_read_comp pixel i in
      let? r := s_read_comps n (i + 1) pixel in
      Some (c :: r)
    end.
  Definition s_get_pixel (word pos : Z) : option (list Z) :=
    let? k := map_pixel_pos (sf_N f) (sf_little f) pos in
    let? pixel := take_bits s_value_type s_bits_per_pixel word (k * s_bits_per_pixel) in
    s_read_comps (Z.to_nat (sf_C f)) 0 pixel.

  (* write_comp: subword_pixel_format.hpp:558-578, the integer case *)
  Definition s_write_comp (comp : Z) (pixel : Z) (channel : Z) : option Z :=
    let? n := s_transf_width in
    let? comp_2 := int_to_int n s_value_type (sf_B f) s_transf_type comp in
    let? c := map_channel_pos channel in
    let? s := cshl (s_value_type, comp_2) (c * sf_B f) in
    Some (wrap s_value_type (snd (cor (s_value_type, pixel) s))).

  (* encode_pixel: subword_pixel_format.hpp:517-534, the case without alpha division *)
  Fixpoint s_write_comps (n : nat) (i : Z) (source : list Z) (pixel : Z) : option Z :=
    match n with
    | O => Some pixel
    | S n =>
      let? v := rd source i in
      let? pixel := s_write_comp v pixel i in
      s_write_comps n (i + 1) source pixel
    end.
  Definition encode_pixel (source : list Z) : option Z := s_write_comps (Z.to_nat (sf_C f)) 0 source 0.

  (* do_set_pixel: subword_pixel_format.hpp:582-587 *)
  Definition do_set_pixel (pixel word pos : Z) : option Z :=
    let? k := map_pixel_pos (sf_N f) (sf_little f) pos in
    let shift := k * s_bits_per_pixel in
    put_bits s_value_type s_bits_per_word s_bits_per_pixel pixel word shift.

  (* set_pixel: subword_pixel_format.hpp:508-513 *)
  Definition s_set_pixel (source : list Z) (word pos : Z) : option Z :=
    let? pixel := encode_pixel source in
    do_set_pixel pixel word pos.

  (* read, write: subword_pixel_format.hpp:300-397 *)
  Definition subword_read := run_read (list Z) (sf_N f) 1 (sf_aligned f) read_word s_get_pixel.
  Definition subword_write := run_write (list Z) (sf_N f) 1 (sf_aligned f) read_word write_word s_set_pixel.

  (* fill: subword_pixel_format.hpp:401-440.  The assertion (404) is in run_fill. *)
  Definition subword_fill (buf : list Z) (image_size : size) (area : box) (color : list Z) : option (list Z) :=
    let? pixel := encode_pixel color in
    run_fill Z (sf_N f) 1 (sf_aligned f) read_word write_word do_set_pixel buf image_size area pixel.

  (* get_words_per_row: subword_pixel_format.hpp:444-451.  U is std::size_t.  None is
     undefined behaviour; Some None is an exception. *)
  Definition s_get_words_per_row (U : ity) (image_width : Z) : option (option Z) :=
    let? (ok, n) := try_int_mul U t_int 1 image_width in
    if ok : bool then
      let? n := int_div_round_up U t_int n (sf_N f) in
      Some (Some n)
    else Some None.

  (* get_buffer_size: subword_pixel_format.hpp:259-272 *)
  Definition s_get_buffer_size (U : ity) (image_size : size) : option (option Z) :=
    if sf_aligned f then
      let? r := s_get_words_per_row U (width image_size) in
      match r with
      | None => Some None
      | Some s =>
        let? (ok, s) := try_int_mul U t_int s (height image_size) in
        if ok : bool then Some (Some s) else Some None
      end
    else
      let? (ok, n) := try_int_mul U t_int 1 (width image_size) in
      if ok : bool then
        let? (ok, n) := try_int_mul U t_int n (height image_size) in
        if ok : bool then
          let? n := int_div_round_up U t_int n (sf_N f) in
          Some (Some n)
        else Some None
      else Some None.
End Subword.

(* ---- indexed formats ---- *)

(* The template parameters of IndexedPixelFormat: indexed_pixel_format.hpp:117-199.  T8 is
   int8_type, the transfer component type. *)
Record indexed_format := IndexedFormat {
  xf_S : ity;                  (* compound_type *)
  xf_M : Z;                    (* bits_per_pixel *)
  xf_N : Z;                    (* pixels_per_compound *)
  xf_bit_little : bool;        (* bit_order *)
  xf_W : ity;                  (* word_type *)
  xf_B : Z;                    (* bits_per_word *)
  xf_D : Z;                    (* words_per_compound *)
  xf_little : bool;            (* word_order *)
  xf_aligned : bool;           (* compound_aligned_rows *)
  xf_T8 : ity
}.

Section Indexed.
  Variable f : indexed_format.

  (* indexed_pixel_format.hpp:199 *)
  Definition x_bits_per_compound : Z := xf_D f * xf_B f.

  (* the static assertions: indexed_pixel_format.hpp:202-210 *)
  Definition x_static_ok : bool :=
    (0 <? xf_M f) && (0 <? xf_N f) && (xf_N f <=? Z.quot x_bits_per_compound (xf_M f)) &&
    (0 <? xf_B f) && (xf_B f <=? iwidth (xf_W f)) && (0 <? xf_D f) &&
    (xf_D f <=? Z.quot (iwidth (xf_S f)) (xf_B f)).

  (* value_type: indexed_pixel_format.hpp:282 *)
  Definition x_value_type : ity := unpacked_type (xf_S f) x_bits_per_compound.

  (* get_pixel: indexed_pixel_format.hpp:583-589, and comp_repr_pack: comp_repr.hpp:505-516 *)
  Definition x_get_pixel (compound pos : Z) : option Z :=
    let? k := map_pixel_pos (xf_N f) (xf_bit_little f) pos in
    let? value := take_bits x_value_type (xf_M f) compound (k * xf_M f) in
    pack_int (xf_T8 f) 8 x_value_type value.

  (* set_pixel: indexed_pixel_format.hpp:593-601, and comp_repr_unpack: comp_repr.hpp:519-530 *)
  Definition x_set_pixel (source : Z) (compound pos : Z) : option Z :=
    let? u := unpack_int 8 (xf_T8 f) source in
    let value := wrap x_value_type u in
    let? k := map_pixel_pos (xf_N f) (xf_bit_little f) pos in
    let shift := k * xf_M f in
    put_bits x_value_type x_bits_per_compound (xf_M f) value compound shift.

  Definition x_read_compound := read_compound (xf_W f) x_value_type (xf_B f) (xf_D f) (xf_little f).
  Definition x_write_compound := write_compound (xf_W f) x_value_type (xf_B f) (xf_D f) (xf_little f).

  (* read, write, fill: indexed_pixel_format.hpp:383-524 *)
  Definition indexed_read := run_read Z (xf_N f) (xf_D f) (xf_aligned f) x_read_compound x_get_pixel.
  Definition indexed_write := run_write Z (xf_N f) (xf_D f) (xf_aligned f) x_read_compound x_write_compound x_set_pixel.
  Definition indexed_fill := run_fill Z (xf_N f) (xf_D f) (xf_aligned f) x_read_compound x_write_compound x_set_pixel.

  (* get_words_per_row: indexed_pixel_format.hpp:528-536 *)
  Definition x_get_words_per_row (U : ity) (image_width : Z) : option (option Z) :=
    let? (ok, n) := try_int_mul U t_int 1 image_width in
    if ok : bool then
      let? n := int_div_round_up U t_int n (xf_N f) in
      let? (ok, n) := try_int_mul U t_int n (xf_D f) in
      if ok : bool then Some (Some n) else Some None
    else Some None.

  (* get_buffer_size: indexed_pixel_format.hpp:337-352 *)
  Definition x_get_buffer_size (U : ity) (image_size : size) : option (option Z) :=
    if xf_aligned f then
      let? r := x_get_words_per_row U (width image_size) in
      match r with
      | None => Some None
      | Some s =>
        let? (ok, s) := try_int_mul U t_int s (height image_size) in
        if ok : bool then Some (Some s) else Some None
      end
    else
      let? (ok, n) := try_int_mul U t_int 1 (width image_size) in
      if ok : bool then
        let? (ok, n) := try_int_mul U t_int n (height image_size) in
        if ok : bool then
          let? m := int_div_round_up U t_int n (xf_N f) in
          let? (ok, m) := try_int_mul U t_int m (xf_D f) in
          if ok : bool then Some (Some m) else Some None
        else Some None
      else Some None.
End Indexed.
