(* Model of descriptions of the layout of pixels in memory, and of the reinterpretation of
   one kind of layout as another (src/archon/image/buffer_format.hpp,
   src/archon/image/buffer_format.cpp), of the determination of the byte order of integer
   types (src/archon/core/endianness.hpp), and of the selection of a PNG format that
   matches the layout (src/archon/image/file_format_png.cpp).

   An overflow of int, a division by zero, and a failing assertion are None.  A byte has 8
   bits. *)
From Coq Require Import ZArith Bool List.
From Verif Require Import CInt IntModel PixelBoxModel.
From Verif Require Import ArrLib.
Import ListNotations.
Open Scope Z_scope.

(* BufferFormat::IntegerType: buffer_format.hpp:68, Endianness: endianness.hpp:79-82 *)
Inductive itype := Byte | Char | Short | Int | Long | LLong.
Inductive endian := Big | Little.

Definition itype_eqb (a b : itype) : bool :=
  match a, b with
  | Byte, Byte | Char, Char | Short, Short | Int, Int | Long, Long | LLong, LLong => true
  | _, _ => false
  end.
Definition endian_eqb (a b : endian) : bool :=
  match a, b with Big, Big | Little, Little => true | _, _ => false end.

(* The platform: the number of bytes of each type, its bit width, and which of its bytes
   (perm) holds the digit in base 256 of a given significance.  The last is meaningful when
   there are no padding bits.  For types with padding bits, the value of a word is an
   arbitrary function of its bytes. *)
Record platform := Platform {
  nbytes : itype -> nat;
  nbits : itype -> Z;
  perm : itype -> list nat;
  raw : itype -> list Z -> Z
}.

(* The byte at the given position of the representation of the specified value *)
Definition byte_at (pf : platform) (t : itype) (v : Z) (q : nat) : Z :=
  match find (fun j => Nat.eqb (nth j (perm pf t) 0%nat) q) (seq 0 (nbytes pf t)) with
  | Some j => (v / 256 ^ Z.of_nat j) mod 256
  | None => 0
  end.

Definition imul (a b : Z) : option Z := if in_rangeb t_int (a * b) then Some (a * b) else None.
Definition assert (b : bool) : option unit := if b then Some tt else None.

(* the loops of core::try_get_byte_order: endianness.hpp:148-159 and 163-174 *)
Fixpoint check_order (fuel : nat) (pf : platform) (t : itype) (e : endian) (i : nat) : option (option endian) :=
  match fuel with
  | O => None
  | S fuel' =>
    let n := nbytes pf t in
    let val := 2 ^ (Z.of_nat i * 8) in
    let q := match e with Big => (n - 1 - i)%nat | Little => i end in
    if byte_at pf t val q =? 1 then
      if Nat.ltb (S i) n then check_order fuel' pf t e (S i) else Some (Some e)
    else Some None
  end.

(* core::try_get_byte_order: endianness.hpp:135-181.  Some None is the return value false. *)
Definition core_byte_order (pf : platform) (t : itype) : option (option endian) :=
  let n := nbytes pf t in
  if Nat.eqb n 1 then Some (Some Big)
  else if nbits pf t =? Z.of_nat n * 8 then
    if byte_at pf t 1 (n - 1) =? 1 then check_order (S n) pf t Big 1
    else if byte_at pf t 1 0 =? 1 then check_order (S n) pf t Little 1
    else Some None
  else Some None.

(* BufferFormat::try_get_byte_order: buffer_format.cpp:490-509 *)
Definition try_get_byte_order (pf : platform) (t : itype) : option (option endian) :=
  match t with
  | Byte => Some (Some Big)
  | _ => core_byte_order pf t
  end.

(* The color space, to the extent that it matters *)
Inductive color_space := Lum | RGB | Other (num_channels : Z).
Definition cs_channels (c : color_space) : Z := match c with Lum => 1 | RGB => 3 | Other n => n end.

(* BufferFormat::ChannelConf: buffer_format.hpp:82-90, 409-418 *)
Record channel_conf := Conf { cspace : color_space; has_alpha : bool; alpha_first : bool; rev_order : bool }.
Definition num_channels (c : channel_conf) : option Z :=
  iadd (cs_channels (cspace c)) (if has_alpha c then 1 else 0).
Definition conf_reverse (c : channel_conf) : channel_conf :=
  Conf (cspace c) (has_alpha c) (alpha_first c) (negb (rev_order c)).

(* BufferFormat::IntegerFormat: buffer_format.hpp:107-123 *)
Record int_format := IntFormat {
  i_type : itype; i_bits : Z; i_words : Z; i_order : endian; i_conf : channel_conf }.
(* image::BitField: bit_field.hpp:47-65, BufferFormat::PackedFormat: buffer_format.hpp:165-180 *)
Record bit_field := Field { fwidth : Z; fgap : Z }.
Record packed_format := PackedFormat {
  p_type : itype; p_bits : Z; p_words : Z; p_order : endian; p_fields : list bit_field; p_conf : channel_conf }.
(* BufferFormat::SubwordFormat: buffer_format.hpp:219-234 *)
Record sub_format := SubFormat {
  s_type : itype; s_bits : Z; s_pixels : Z; s_order : endian; s_aligned : bool; s_conf : channel_conf }.

(* BufferFormat: buffer_format.hpp:294-303.  Simplification: of the remaining two kinds of
   formats, only the kind is modelled. *)
Inductive format :=
| FInt (f : int_format)
| FPacked (f : packed_format)
| FSub (f : sub_format)
| FFloat
| FIndexed.

Definition int_max : Z := imax t_int.

(* int division, with a divisor that is proved to be positive *)
Definition idiv (a b : Z) : option Z := if b =? 0 then None else Some (Z.quot a b).
Definition irem (a b : Z) : option Z := if b =? 0 then None else Some (Z.rem a b).

(* left-to-right && *)
Definition oand (a : option bool) (b : option bool) : option bool :=
  let? x := a in if x then b else Some false.

(* IntegerFormat::is_valid: buffer_format.hpp:421-426 *)
Definition int_valid (pf : platform) (f : int_format) : option bool :=
  oand (Some (0 <? i_bits f)) (oand (Some (0 <? i_words f)) (oand (Some (i_bits f <=? nbits pf (i_type f)))
    (let? q := idiv int_max (i_bits f) in Some (i_words f <=? q)))).

(* image::valid_bit_fields: bit_field.hpp:129-141 *)
Fixpoint valid_fields (l : list bit_field) (total avail : Z) : option bool :=
  match l with
  | [] => Some (total <=? avail)
  | f :: r =>
    if (fwidth f <? 1) || (fgap f <? 0) then Some false
    else match iadd total (fwidth f) with
         | None => Some false
         | Some total =>
           match iadd total (fgap f) with
           | None => Some false
           | Some total => valid_fields r total avail
           end
         end
  end.

(* PackedFormat::is_valid: buffer_format.hpp:439-447.  Only the first num_channels of the
   bit_fields are looked at. *)
Definition max_bit_fields : Z := 8.
Definition packed_valid (pf : platform) (f : packed_format) : option bool :=
  let? n := num_channels (p_conf f) in
  oand (Some (0 <? p_bits f)) (oand (Some (0 <? p_words f)) (oand (Some (p_bits f <=? nbits pf (p_type f)))
    (oand (let? q := idiv int_max (p_bits f) in Some (p_words f <=? q))
      (oand (Some (n <=? max_bit_fields))
        (let? total := imul (p_words f) (p_bits f) in
         valid_fields (firstn (Z.to_nat n) (p_fields f)) 0 total))))).

(* SubwordFormat::is_valid: buffer_format.hpp:450-457 *)
Definition sub_valid (pf : platform) (f : sub_format) : option bool :=
  let? n := num_channels (s_conf f) in
  oand (Some (0 <? s_bits f)) (oand (Some (0 <? s_pixels f))
    (oand (let? q := idiv int_max (s_bits f) in Some (n <=? q))
      (let? m := imul n (s_bits f) in
       let? q := idiv (nbits pf (s_type f)) m in Some (s_pixels f <=? q)))).

(* The outcome of try_cast_to(): an exception, the return value false, or true with the new
   format *)
Inductive outcome (A : Type) := Throws | No | Yes (a : A).
Arguments Throws {A}.
Arguments No {A}.
Arguments Yes {A} a.

(* core::try_int_mul(n, bytes_per_word) && bits == n, with n = 8 initially *)
Definition all_bits_used (bytes_per_word bits : Z) : bool :=
  match imul 8 bytes_per_word with Some m => bits =? m | None => false end.

Definition bytes_per_word (pf : platform) (t : itype) : Z := Z.of_nat (nbytes pf t).

(* BufferFormat::try_cast_to(IntegerFormat&): the case of Type::integer: buffer_format.cpp:55-91 *)
Definition int_to_int (pf : platform) (f : int_format) (wt : itype) : option (outcome int_format) :=
  let? v := int_valid pf f in
  if negb v then Some Throws else
  let same := IntFormat wt (i_bits f) (i_words f) (i_order f) (i_conf f) in
  if itype_eqb wt (i_type f) then Some (Yes same) else
  if negb (itype_eqb wt Byte) then Some No else
  let bpw := bytes_per_word pf (i_type f) in
  if 1 <? bpw then
    if negb (all_bits_used bpw (i_bits f)) then Some No else
    let? o := try_get_byte_order pf (i_type f) in
    match o with
    | None => Some No
    | Some byte_order =>
      if (1 <? i_words f) && negb (endian_eqb (i_order f) byte_order) then Some No else
      let? w := imul (i_words f) bpw in
      Some (Yes (IntFormat Byte 8 w byte_order (i_conf f)))
    end
  else Some (Yes same).

(* the loop at buffer_format.cpp:108-118; gap is the gap of the previous field *)
Fixpoint check_shifts (gap : Z) (l : list bit_field) (part : Z) : option bool :=
  match l with
  | [] => Some (gap =? 0)
  | f :: r =>
    let? s := iadd gap (fwidth f) in
    if negb (s =? part) then Some false else check_shifts (fgap f) r part
  end.

(* BufferFormat::try_cast_to(IntegerFormat&): the case of Type::packed: buffer_format.cpp:92-171 *)
Definition packed_to_int (pf : platform) (f : packed_format) (wt : itype) : option (outcome int_format) :=
  let? v := packed_valid pf f in
  if negb v then Some Throws else
  let? n := num_channels (p_conf f) in
  let? _ := assert (0 <? n) in
  let? wpc := idiv (p_words f) n in
  let? remainder := irem (p_words f) n in
  if negb (remainder =? 0) then Some No else
  let? part := imul wpc (p_bits f) in
  let fields := firstn (Z.to_nat n) (p_fields f) in
  match fields with
  | [] => None
  | f0 :: rest =>
    let? ok := check_shifts (fgap f0) rest part in
    if negb ok then Some No else
    let? r :=
      (if negb (itype_eqb wt (p_type f)) then
         if negb (itype_eqb wt Byte) then Some None else
         let bpw := bytes_per_word pf (p_type f) in
         if 1 <? bpw then
           if negb (all_bits_used bpw (p_bits f)) then Some None else
           let? o := try_get_byte_order pf (p_type f) in
           match o with
           | None => Some None
           | Some byte_order =>
             if (1 <? wpc) && negb (endian_eqb (p_order f) byte_order) then Some None else
             let? w := imul wpc bpw in Some (Some (w, 8, byte_order))
           end
         else Some (Some (wpc, p_bits f, p_order f))
       else if wpc =? 1 then Some (Some (wpc, fwidth f0, Big))
       else Some (Some (wpc, p_bits f, p_order f))) in
    match r with
    | None => Some No
    | Some (wpc, bits, order) =>
      let? depth := imul wpc bits in
      if negb (forallb (fun g => fwidth g =? depth) fields) then Some No else
      Some (Yes (IntFormat wt bits wpc order
        (if endian_eqb order Big then conf_reverse (p_conf f) else p_conf f)))
    end
  end.

(* BufferFormat::try_cast_to(IntegerFormat&): the case of Type::subword: buffer_format.cpp:172-240 *)
Definition sub_to_int (pf : platform) (f : sub_format) (wt : itype) : option (outcome int_format) :=
  let? v := sub_valid pf f in
  if negb v then Some Throws else
  let? n := num_channels (s_conf f) in
  let same :=
    if (1 <? n) || (1 <? s_pixels f) then Some No
    else Some (Yes (IntFormat wt (s_bits f) 1 Big (s_conf f))) in
  if itype_eqb wt (s_type f) then same else
  if negb (itype_eqb wt Byte) then Some No else
  let bpw := bytes_per_word pf (s_type f) in
  if 1 <? bpw then
    let? b := imul (s_bits f) n in
    let? bits := imul b (s_pixels f) in
    if negb (all_bits_used bpw bits) then Some No else
    if negb (Z.rem (s_bits f) 8 =? 0) then Some No else
    let? o := try_get_byte_order pf (s_type f) in
    match o with
    | None => Some No
    | Some byte_order =>
      if (1 <? s_pixels f) && (negb (endian_eqb byte_order (s_order f)) || s_aligned f) then Some No else
      Some (Yes (IntFormat wt 8 bpw byte_order
        (if endian_eqb byte_order Little then conf_reverse (s_conf f) else s_conf f)))
    end
  else same.

(* BufferFormat::try_cast_to(IntegerFormat&): buffer_format.cpp:52-250 *)
Definition cast_to_int (pf : platform) (f : format) (wt : itype) : option (outcome int_format) :=
  match f with
  | FInt f => int_to_int pf f wt
  | FPacked f => packed_to_int pf f wt
  | FSub f => sub_to_int pf f wt
  | FFloat | FIndexed => Some No
  end.

(* BufferFormat::try_cast_to(SubwordFormat&): the case of Type::integer: buffer_format.cpp:352-385 *)
Definition int_to_sub (pf : platform) (f : int_format) (wt : itype) : option (outcome sub_format) :=
  let? v := int_valid pf f in
  if negb v then Some Throws else
  if negb (itype_eqb wt (i_type f)) && (negb (itype_eqb wt Byte) || (1 <? bytes_per_word pf (i_type f))) then Some No else
  let? n := num_channels (i_conf f) in
  if (1 <? n) || (1 <? i_words f) then Some No else
  Some (Yes (SubFormat wt (i_bits f) 1 Big false (i_conf f))).

(* the case of Type::packed: buffer_format.cpp:386-432 *)
Definition packed_to_sub (pf : platform) (f : packed_format) (wt : itype) : option (outcome sub_format) :=
  let? v := packed_valid pf f in
  if negb v then Some Throws else
  if negb (itype_eqb wt (p_type f)) && (negb (itype_eqb wt Byte) || (1 <? bytes_per_word pf (p_type f))) then Some No else
  if 1 <? p_words f then Some No else
  let? n := num_channels (p_conf f) in
  let? _ := assert (0 <? n) in
  let fields := firstn (Z.to_nat n) (p_fields f) in
  match fields with
  | [] => None
  | f0 :: _ =>
    if negb (forallb (fun g => (fwidth g =? fwidth f0) && (fgap g =? 0)) fields) then Some No else
    Some (Yes (SubFormat wt (fwidth f0) 1 Big false (p_conf f)))
  end.

(* the case of Type::subword: buffer_format.cpp:433-477 *)
Definition sub_to_sub (pf : platform) (f : sub_format) (wt : itype) : option (outcome sub_format) :=
  let? v := sub_valid pf f in
  if negb v then Some Throws else
  let same := SubFormat wt (s_bits f) (s_pixels f) (s_order f) (s_aligned f) (s_conf f) in
  if itype_eqb wt (s_type f) then Some (Yes same) else
  if negb (itype_eqb wt Byte) then Some No else
  let bpw := bytes_per_word pf (s_type f) in
  if 1 <? bpw then
    let? n := num_channels (s_conf f) in
    let? b := imul (s_bits f) n in
    let? bits := imul b (s_pixels f) in
    if negb (all_bits_used bpw bits) then Some No else
    let? pixels_per_byte := idiv (s_pixels f) bpw in
    let? remainder := irem (s_pixels f) bpw in
    if negb (remainder =? 0) then Some No else
    let? o := try_get_byte_order pf (s_type f) in
    match o with
    | None => Some No
    | Some byte_order =>
      if negb (endian_eqb byte_order (s_order f)) then Some No else
      if s_aligned f then Some No else
      Some (Yes (SubFormat Byte (s_bits f) pixels_per_byte (s_order f) (s_aligned f) (s_conf f)))
    end
  else Some (Yes same).

(* BufferFormat::try_cast_to(SubwordFormat&): buffer_format.cpp:349-487 *)
Definition cast_to_sub (pf : platform) (f : format) (wt : itype) : option (outcome sub_format) :=
  match f with
  | FInt f => int_to_sub pf f wt
  | FPacked f => packed_to_sub pf f wt
  | FSub f => sub_to_sub pf f wt
  | FFloat | FIndexed => Some No
  end.

(* The PNG format and the transformations: file_format_png.cpp:184-198 *)
Record png_format := PngFormat {
  g_depth : Z; g_rgb : bool; g_alpha : bool;            (* bit_depth and color_type *)
  g_alpha_first : bool; g_bgr : bool; g_swap_bytes : bool; g_swap_bits : bool;
  g_bytes_per_row : Z }.

(* IntegerFormat::get_words_per_row: buffer_format.hpp:429-436, with checked multiplication
   in std::size_t (64 bits) *)
Definition size_max : Z := 2 ^ 64 - 1.
Definition smul (a b : Z) : option Z := if a * b <=? size_max then Some (a * b) else None.

(* try_match_save_format(): file_format_png.cpp:201-283.  Throws is for the exceptions of
   try_cast_to() and of int_mul(). *)
Definition match_save (pf : platform) (f : format) (w : Z) : option (outcome png_format) :=
  let? r := cast_to_int pf f Byte in
  match r with
  | Throws => Some Throws
  | Yes g =>
    if negb (i_bits g =? 8) then Some No else
    let depth := if i_words g =? 1 then Some (8, false)
                 else if i_words g =? 2 then Some (16, endian_eqb (i_order g) Little)
                 else None in
    match depth with
    | None => Some No
    | Some (depth, swap_bytes) =>
      let color := match cspace (i_conf g) with RGB => Some true | Lum => Some false | Other _ => None end in
      match color with
      | None => Some No
      | Some rgb =>
        let? n := num_channels (i_conf g) in
        match (let? a := smul 1 (i_words g) in let? a := smul a n in smul a w) with
        | None => Some Throws
        | Some bytes =>
          Some (Yes (PngFormat depth rgb (has_alpha (i_conf g))
            (negb (Bool.eqb (alpha_first (i_conf g)) (rev_order (i_conf g)))) (rev_order (i_conf g)) swap_bytes false bytes))
        end
      end
    end
  | No =>
    let? r := cast_to_sub pf f Byte in
    match r with
    | Throws => Some Throws
    | No => Some No
    | Yes g =>
      if negb ((s_bits g =? 1) || (s_bits g =? 2) || (s_bits g =? 4)) then Some No else
      if negb (match cspace (s_conf g) with Lum => true | _ => false end) then Some No else
      if has_alpha (s_conf g) then Some No else
      let? pixels_per_byte := idiv 8 (s_bits g) in
      if negb (s_pixels g =? pixels_per_byte) then Some No else
      let? bytes := idiv w pixels_per_byte in
      let? remainder := irem w pixels_per_byte in
      let? bytes :=
        (if negb (remainder =? 0) then
           if negb (s_aligned g) then Some None else let? b := iadd bytes 1 in Some (Some b)
         else Some (Some bytes)) in
      match bytes with
      | None => Some No
      | Some bytes =>
        Some (Yes (PngFormat (s_bits g) false false false false false (negb (endian_eqb (s_order g) Big)) bytes))
      end
    end
  end.
