(* Model of packed pixel formats (src/archon/image/packed_pixel_format.hpp) and of bit
   fields (src/archon/image/bit_field.hpp).

   Word type W, compound type S and transfer component type are builtin integer types.
   Only formats with transfer in terms of integers are modelled, i.e., formats where no
   component has more than 16 bits; the others use floating-point numbers.  Color spaces
   and try_describe() are not modelled.  A pixel of a tray is a list of transfer
   components in canonical channel order. *)
From Coq Require Import ZArith Bool List.
From Verif Require Import CInt IntModel.
From Verif Require Import PixelBoxModel BitMediumModel PixelBufModel.
From Verif Require Import ArrLib.
Import ListNotations.
Open Scope Z_scope.

(* ---- bit fields ---- *)

(* BitField: bit_field.hpp:47-65 *)
Record bit_field := BitField { fwidth : Z; fgap : Z }.

(* valid_bit_fields: bit_field.hpp:129-141; the loop *)
Fixpoint valid_loop (fields : list bit_field) (total : Z) : option Z :=
  match fields with
  | [] => Some total
  | f :: fields =>
    if (fwidth f <? 1) || (fgap f <? 0) then None
    else match try_int_add t_int t_int total (fwidth f) with
         | Some (true, t) =>
           match try_int_add t_int t_int t (fgap f) with
           | Some (true, t) => valid_loop fields t
           | _ => None
           end
         | _ => None
         end
  end.
Definition valid_bit_fields (fields : list bit_field) (avail : Z) : bool :=
  match valid_loop fields 0 with Some t => t <=? avail | None => false end.

(* get_bit_field_width: bit_field.hpp:144-149 *)
Definition get_bit_field_width (fields : list bit_field) (j : Z) : option Z :=
  let? f := (if 0 <=? j then nth_error fields (Z.to_nat j) else None) in
  Some (fwidth f).

(* get_bit_field_shift: bit_field.hpp:152-163 *)
Fixpoint shift_loop (fields : list bit_field) (offset : Z) : option Z :=
  match fields with
  | [] => Some offset
  | f :: fields =>
    let? a := iadd offset (fwidth f) in
    let? b := iadd a (fgap f) in
    shift_loop fields b
  end.
Definition get_bit_field_shift (fields : list bit_field) (j : Z) : option Z :=
  let? f := (if 0 <=? j then nth_error fields (Z.to_nat j) else None) in
  let? offset := shift_loop (skipn (S (Z.to_nat j)) fields) 0 in
  iadd offset (fgap f).

(* get_bit_field_mask<T>: bit_field.hpp:166-176.  int_mask() << shift is an expression of
   the unpacked type, which is promoted. *)
Definition get_bit_field_mask (T : ity) (fields : list bit_field) (j : Z) : option Z :=
  let? w := get_bit_field_width fields j in
  let? shift := get_bit_field_shift fields j in
  let n := iwidth T in
  if (w <=? n) && (shift <=? n - w) then
    let U := unpacked_type T n in
    let? m := int_mask U w in
    let? s := cshl (U, m) shift in
    pack_int T n U (snd s)
  else None.

(* widest_bit_field: bit_field.hpp:179-189 *)
Fixpoint widest_loop (fields : list bit_field) (width : Z) : Z :=
  match fields with
  | [] => width
  | f :: fields => if fwidth f <=? width then widest_loop fields width else widest_loop fields (fwidth f)
  end.
Definition widest_bit_field (fields : list bit_field) : Z := widest_loop fields 0.

(* choose_transf_repr: comp_repr.hpp:714-721, the bit width of the scheme (602-613 of the
   same file).  None is for the floating-point scheme. *)
Definition transf_bits (num_bits : Z) : option Z :=
  if num_bits <=? 8 then Some 8
  else if num_bits <=? 16 then Some 16
  else None.

(* ---- the format ---- *)

(* The template parameters of PackedPixelFormat: packed_pixel_format.hpp:128-141.  T8 and
   T16 are int8_type and int16_type (comp_types.hpp:61-62); the signedness of the former
   depends on the platform. *)
Record packed_format := PackedFormat {
  pf_S : ity;                  (* compound_type *)
  pf_fields : list bit_field;  (* channel_packing_type::fields *)
  pf_W : ity;                  (* word_type *)
  pf_B : Z;                    (* bits_per_word *)
  pf_D : Z;                    (* words_per_pixel *)
  pf_little : bool;            (* word_order *)
  pf_alpha : bool;             (* has_alpha_channel *)
  pf_alpha_first : bool;       (* alpha_channel_first *)
  pf_reverse : bool;           (* reverse_channel_order *)
  pf_T8 : ity;
  pf_T16 : ity
}.

Section Format.
  Variable f : packed_format.

  Definition num_channels : Z := Z.of_nat (length (pf_fields f)).

  (* packed_pixel_format.hpp:145-147 and 174-177 *)
  Definition bits_per_pixel : Z := pf_D f * pf_B f.
  Definition bit_depth : Z := widest_bit_field (pf_fields f).
  Definition transf_width : option Z := transf_bits bit_depth.
  Definition transf_type : ity := if bit_depth <=? 8 then pf_T8 f else pf_T16 f.

  (* the static assertions: packed_pixel_format.hpp:149-158.  There are as many fields as
     channels by construction here (156-157). *)
  Definition static_ok : bool :=
    (0 <? pf_B f) && (pf_B f <=? iwidth (pf_W f)) && (0 <? pf_D f) &&
    (pf_D f <=? Z.quot (imax t_int) (pf_B f)) && (bits_per_pixel <=? iwidth (pf_S f)) &&
    valid_bit_fields (pf_fields f) bits_per_pixel.

  (* value_type: packed_pixel_format.hpp:222 *)
  Definition value_type : ity := unpacked_type (pf_S f) bits_per_pixel.

  (* map_channel_index: packed_pixel_format.hpp:537-549 *)
  Definition map_channel_index (i : Z) : option Z :=
    let n := num_channels in
    if (0 <=? i) && (i <? n) then
      let j := i in
      let j := if pf_alpha f && pf_alpha_first f then Z.rem (j + 1) n else j in
      let j := if pf_reverse f then (n - 1) - j else j in
      Some j
    else None.

  (* get_channel_width, get_channel_shift: packed_pixel_format.hpp:384-396 *)
  Definition get_channel_width (i : Z) : option Z :=
    let? j := map_channel_index i in get_bit_field_width (pf_fields f) j.
  Definition get_channel_shift (i : Z) : option Z :=
    let? j := map_channel_index i in get_bit_field_shift (pf_fields f) j.

  (* get_component<I>: packed_pixel_format.hpp:482-503, the integer case *)
  Definition get_component (i : Z) (pixel : Z) : option Z :=
    let? width := get_channel_width i in
    let? shift := get_channel_shift i in
    let? s := cshr (value_type, pixel) shift in
    let? mask := int_mask value_type width in
    let value := wrap value_type (snd (cand s (value_type, mask))) in
    let? n := transf_width in
    int_to_int width transf_type n value_type value.

  (* set_component<I>: packed_pixel_format.hpp:508-533, the integer case *)
  Definition set_component (i : Z) (pixel value : Z) : option Z :=
    let? width := get_channel_width i in
    let? shift := get_channel_shift i in
    let? n := transf_width in
    let? value_2 := int_to_int n value_type width transf_type value in
    let? s := cshl (value_type, value_2) shift in
    Some (wrap value_type (snd (cor (value_type, pixel) s))).

  (* read_pixel: packed_pixel_format.hpp:418-445, the case without alpha multiplication
     (429-434) *)
  Fixpoint get_components (n : nat) (i : Z) (pixel : Z) : option (list Z) :=
    match n with
    | O => Some []
    | S n =>
      let? c := get_component i pixel in
      let? r := get_components n (i + 1) pixel in
      Some (c :: r)
    end.
  Definition read_pixel (buf : list Z) (source : Z) : option (list Z) :=
    let? pixel := read_compound (pf_W f) value_type (pf_B f) (pf_D f) (pf_little f) buf source in
    get_components (length (pf_fields f)) 0 pixel.

  (* write_pixel: packed_pixel_format.hpp:449-478, the case without alpha division
     (454-459) *)
  Fixpoint set_components (n : nat) (i : Z) (pixel : Z) (source : list Z) : option Z :=
    match n with
    | O => Some pixel
    | S n =>
      let? v := rd source i in
      let? pixel := set_component i pixel v in
      set_components n (i + 1) pixel source
    end.
  Definition write_pixel (source : list Z) (buf : list Z) (target : Z) : option (list Z) :=
    let? pixel := set_components (length (pf_fields f)) 0 0 source in
    write_compound (pf_W f) value_type (pf_B f) (pf_D f) (pf_little f) pixel buf target.

  (* read, write, fill: packed_pixel_format.hpp:308-358 *)
  Definition packed_read := read (list Z) (pf_D f) read_pixel.
  Definition packed_write := write (list Z) (pf_D f) write_pixel.
  Definition packed_fill := fill (list Z) (pf_D f) write_pixel.

  (* get_words_per_row: packed_pixel_format.hpp:374-380.  U is std::size_t.  None is
     undefined behaviour; Some None is an exception. *)
  Definition get_words_per_row (U : ity) (image_width : Z) : option (option Z) :=
    let? (ok, n) := try_int_mul U t_int 1 (pf_D f) in
    if ok : bool then
      let? (ok, n) := try_int_mul U t_int n image_width in
      if ok : bool then Some (Some n) else Some None
    else Some None.

  (* get_buffer_size: packed_pixel_format.hpp:274-279 *)
  Definition get_buffer_size (U : ity) (image_size : size) : option (option Z) :=
    let? r := get_words_per_row U (width image_size) in
    match r with
    | None => Some None
    | Some s =>
      let? (ok, s) := try_int_mul U t_int s (height image_size) in
      if ok : bool then Some (Some s) else Some None
    end.
End Format.
