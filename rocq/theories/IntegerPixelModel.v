(* Model of integer pixel formats (src/archon/image/integer_pixel_format.hpp), where
   each component is a number made of one or more words.

   As for packed formats (PackedPixelModel.v), reading and writing are modelled for
   formats with transfer in terms of integers (bit_depth <= 16).  The assembly of words
   in read_comp() and the splitting into words in write_comp() are modelled for all
   formats. *)
From Coq Require Import ZArith Bool List.
From Verif Require Import CInt IntModel.
From Verif Require Import PixelBoxModel BitMediumModel PixelBufModel PackedPixelModel.
From Verif Require Import ArrLib.
Import ListNotations.
Open Scope Z_scope.

(* The template parameters of IntegerPixelFormat: integer_pixel_format.hpp:120-137.  T8
   and T16 are int8_type and int16_type (comp_types.hpp:61-62).  if_same tells whether
   the transfer component type and the word type are the same type. *)
Record integer_format := IntegerFormat {
  if_N : Z;                    (* num_channels *)
  if_W : ity;                  (* word_type *)
  if_B : Z;                    (* bits_per_word *)
  if_S : ity;                  (* comp_type *)
  if_D : Z;                    (* words_per_channel *)
  if_little : bool;            (* word_order *)
  if_alpha : bool;             (* has_alpha_channel *)
  if_alpha_first : bool;       (* alpha_channel_first *)
  if_reverse : bool;           (* reverse_channel_order *)
  if_T8 : ity;
  if_T16 : ity;
  if_same : bool
}.

Section Format.
  Variable f : integer_format.

  (* integer_pixel_format.hpp:136-137 *)
  Definition i_bit_depth : Z := if_D f * if_B f.
  Definition i_words_per_pixel : Z := if_N f * if_D f.

  (* the static assertions: integer_pixel_format.hpp:141-146 *)
  Definition i_static_ok : bool :=
    (0 <? if_B f) && (if_B f <=? iwidth (if_W f)) && (0 <? if_D f) &&
    (if_D f <=? Z.quot (imax t_int) (if_B f)) && (i_bit_depth <=? iwidth (if_S f)) &&
    (if_D f <=? Z.quot (imax t_int) (if_N f)).

  (* integer_pixel_format.hpp:162-165 *)
  Definition i_transf_width : option Z := transf_bits i_bit_depth.
  Definition i_transf_type : ity := if i_bit_depth <=? 8 then if_T8 f else if_T16 f.

  (* unpacked_comp_type: integer_pixel_format.hpp:192 *)
  Definition i_comp_type : ity := unpacked_type (if_S f) i_bit_depth.

  (* is_transf_repr_match: integer_pixel_format.hpp:477-481 *)
  Definition is_transf_repr_match : bool :=
    (if_D f =? 1) && if_same f &&
    match i_transf_width with Some n => n =? i_bit_depth | None => 0 =? i_bit_depth end.

  (* map_channel_index: integer_pixel_format.hpp:485-496 *)
  Definition i_map_channel_index (i : Z) : option Z :=
    let n := if_N f in
    if (0 <=? i) && (i <? n) then
      let j := i in
      let j := if if_alpha f && if_alpha_first f then Z.rem (j + 1) n else j in
      let j := if if_reverse f then (n - 1) - j else j in
      Some j
    else None.

  (* map_word_index: integer_pixel_format.hpp:500-512 *)
  Definition i_map_word_index (i : Z) : option Z :=
    let n := if_D f in
    if (0 <=? i) && (i <? n) then Some (if if_little f then (n - 1) - i else i) else None.

  (* the assembly of words in read_comp: integer_pixel_format.hpp:420-425 *)
  Fixpoint assemble (n : nat) (i : Z) (buf : list Z) (channel_ptr : Z) (comp : Z) : option Z :=
    match n with
    | O => Some comp
    | S n =>
      let? j := i_map_word_index i in
      let? s := cshl (i_comp_type, comp) (if_B f) in
      let comp := wrap i_comp_type (snd s) in
      let? w := rd buf (channel_ptr + j) in
      let? u := unpack_int (if_B f) (if_W f) w in
      let comp := wrap i_comp_type (snd (cor (i_comp_type, comp) (unpacked_type (if_W f) (if_B f), u))) in
      assemble n (i + 1) buf channel_ptr comp
    end.
  Definition assemble_comp (buf : list Z) (channel_ptr : Z) : option Z :=
    assemble (Z.to_nat (if_D f)) 0 buf channel_ptr 0.

  (* read_comp: integer_pixel_format.hpp:412-438, the integer cases *)
  Definition read_comp (buf : list Z) (pixel_ptr : Z) (channel : Z) : option Z :=
    let? c := i_map_channel_index channel in
    let channel_ptr := pixel_ptr + c * if_D f in
    if is_transf_repr_match then rd buf channel_ptr
    else
      let? comp := assemble_comp buf channel_ptr in
      let? n := i_transf_width in
      int_to_int i_bit_depth i_transf_type n i_comp_type comp.

  (* the splitting into words in write_comp: integer_pixel_format.hpp:465-471 *)
  Fixpoint split (n : nat) (i : Z) (comp : Z) (buf : list Z) (channel_ptr : Z) : option (list Z) :=
    match n with
    | O => Some buf
    | S n =>
      let reverse_i := (if_D f - 1) - i in
      let shift := reverse_i * if_B f in
      let? s := cshr (i_comp_type, comp) shift in
      let? mask := int_mask i_comp_type (if_B f) in
      let word := wrap i_comp_type (snd (cand s (i_comp_type, mask))) in
      let? j := i_map_word_index i in
      let? w := pack_int (if_W f) (if_B f) i_comp_type word in
      let? buf := wr buf (channel_ptr + j) w in
      split n (i + 1) comp buf channel_ptr
    end.
  Definition split_comp (comp : Z) (buf : list Z) (channel_ptr : Z) : option (list Z) :=
    split (Z.to_nat (if_D f)) 0 comp buf channel_ptr.

  (* write_comp: integer_pixel_format.hpp:442-473, the integer cases *)
  Definition write_comp (val : Z) (buf : list Z) (pixel_ptr : Z) (channel : Z) : option (list Z) :=
    let? c := i_map_channel_index channel in
    let channel_ptr := pixel_ptr + c * if_D f in
    if is_transf_repr_match then wr buf channel_ptr val
    else
      let? n := i_transf_width in
      let? comp := int_to_int n i_comp_type i_bit_depth i_transf_type val in
      split_comp comp buf channel_ptr.

  (* read_pixel: integer_pixel_format.hpp:374-388, the case without alpha multiplication
     (376-379) *)
  Fixpoint read_comps (n : nat) (i : Z) (buf : list Z) (source : Z) : option (list Z) :=
    match n with
    | O => Some []
    | S n =>
      let? c := read_comp buf source i in
      let? r := read_comps n (i + 1) buf source in
      Some (c :: r)
    end.
  Definition i_read_pixel (buf : list Z) (source : Z) : option (list Z) :=
    read_comps (Z.to_nat (if_N f)) 0 buf source.

  (* write_pixel: integer_pixel_format.hpp:392-408, the case without alpha division
     (395-398) *)
  Fixpoint write_comps (n : nat) (i : Z) (source : list Z) (buf : list Z) (target : Z) : option (list Z) :=
    match n with
    | O => Some buf
    | S n =>
      let? v := rd source i in
      let? buf := write_comp v buf target i in
      write_comps n (i + 1) source buf target
    end.
  Definition i_write_pixel (source : list Z) (buf : list Z) (target : Z) : option (list Z) :=
    write_comps (Z.to_nat (if_N f)) 0 source buf target.

  (* read, write, fill: integer_pixel_format.hpp:293-342 *)
  Definition integer_read := read (list Z) i_words_per_pixel i_read_pixel.
  Definition integer_write := write (list Z) i_words_per_pixel i_write_pixel.
  Definition integer_fill := fill (list Z) i_words_per_pixel i_write_pixel.

  (* get_words_per_row: integer_pixel_format.hpp:346-352.  U is std::size_t.  None is
     undefined behaviour; Some None is an exception. *)
  Definition i_get_words_per_row (U : ity) (image_width : Z) : option (option Z) :=
    let? (ok, n) := try_int_mul U t_int 1 i_words_per_pixel in
    if ok : bool then
      let? (ok, n) := try_int_mul U t_int n image_width in
      if ok : bool then Some (Some n) else Some None
    else Some None.

  (* get_buffer_size: integer_pixel_format.hpp:262-267 *)
  Definition i_get_buffer_size (U : ity) (image_size : size) : option (option Z) :=
    let? r := i_get_words_per_row U (width image_size) in
    match r with
    | None => Some None
    | Some s =>
      let? (ok, s) := try_int_mul U t_int s (height image_size) in
      if ok : bool then Some (Some s) else Some None
    end.
End Format.
