(* Independent specification of layouts of pixels in memory: the value of a channel of a
   pixel as a function of the bytes in memory (src/archon/image/buffer_format.hpp:53-234),
   and of what libpng takes from the bytes of a row. *)
From Coq Require Import ZArith Bool List.
From Verif Require Import BufFmtModel.
Import ListNotations.
Open Scope Z_scope.

(* The number with the specified digits, with the least significant digit first *)
Definition number (base : Z) (digits : list Z) : Z := fold_right (fun d v => d + base * v) 0 digits.

(* The number with the specified digits in the specified order *)
Definition assemble (e : endian) (base : Z) (digits : list Z) : Z :=
  number base (match e with Little => digits | Big => rev digits end).

(* A platform with 8-bit bytes and an arbitrary order of bytes in words, which may be
   different for different types *)
Definition platform_ok (pf : platform) : Prop :=
  nbytes pf Byte = 1%nat /\ (forall t, nbytes pf t = 1%nat -> nbits pf t = 8) /\
  (forall t, (1 <= nbytes pf t)%nat /\ 1 <= nbits pf t <= 8 * Z.of_nat (nbytes pf t) /\ 8 * Z.of_nat (nbytes pf t) < 2 ^ 31) /\
  (forall t, NoDup (perm pf t) /\ length (perm pf t) = nbytes pf t /\ forall q, In q (perm pf t) -> (q < nbytes pf t)%nat).

(* The value of a word that consists of the specified bytes *)
Definition word_value (pf : platform) (t : itype) (bytes : list Z) : Z :=
  if nbits pf t =? 8 * Z.of_nat (nbytes pf t)
  then number 256 (map (fun q => nth q bytes 0) (perm pf t))
  else raw pf t bytes.

(* The bytes of a word are ordered by significance. *)
Definition native (pf : platform) (t : itype) (e : endian) : Prop :=
  forall bytes, length bytes = nbytes pf t -> word_value pf t bytes = assemble e 256 bytes.

(* A sequence of n elements *)
Definition sequence {A} (n : Z) (f : Z -> A) : list A := map (fun i => f (Z.of_nat i)) (seq 0 (Z.to_nat n)).

Definition memory := Z -> Z.
Definition memory_ok (m : memory) : Prop := forall i, 0 <= m i < 256.

(* The i'th word in memory *)
Definition word (pf : platform) (m : memory) (t : itype) (i : Z) : Z :=
  word_value pf t (sequence (bytes_per_word pf t) (fun j => m (i * bytes_per_word pf t + j))).

(* The least significant n bits *)
Definition low_bits (n v : Z) : Z := v mod 2 ^ n.
(* n bits from the specified position *)
Definition bits_at (pos n v : Z) : Z := v / 2 ^ pos mod 2 ^ n.

Definition channels (c : channel_conf) : Z := cs_channels (cspace c) + (if has_alpha c then 1 else 0).

(* The channel configuration is sane *)
Definition conf_ok (c : channel_conf) : Prop := 1 <= cs_channels (cspace c) /\ channels c < 2 ^ 31.

(* The place in memory order, or in order from most to least significant bit field, of a
   channel (the colors first, then alpha) *)
Definition place (c : channel_conf) (k : Z) : Z :=
  let j := if has_alpha c && alpha_first c then (k + 1) mod channels c else k in
  if rev_order c then channels c - 1 - j else j.

(* The value of a channel of a pixel (x, y) of an image of width w *)
Definition int_access (pf : platform) (m : memory) (f : int_format) (w x y k : Z) : Z :=
  let i := ((y * w + x) * channels (i_conf f) + place (i_conf f) k) * i_words f in
  assemble (i_order f) (2 ^ i_bits f) (sequence (i_words f) (fun j => low_bits (i_bits f) (word pf m (i_type f) (i + j)))).

(* the number of bits of less significance than a bit field *)
Definition field_shift (l : list bit_field) (s : nat) : Z :=
  fold_right Z.add 0 (map (fun g => fwidth g + fgap g) (skipn (S s) l)) + fgap (nth s l (Field 0 0)).

Definition packed_access (pf : platform) (m : memory) (f : packed_format) (w x y k : Z) : Z :=
  let i := (y * w + x) * p_words f in
  let compound := assemble (p_order f) (2 ^ p_bits f)
    (sequence (p_words f) (fun j => low_bits (p_bits f) (word pf m (p_type f) (i + j)))) in
  let fields := firstn (Z.to_nat (channels (p_conf f))) (p_fields f) in
  let s := Z.to_nat (place (p_conf f) k) in
  bits_at (field_shift fields s) (fwidth (nth s fields (Field 0 0))) compound.

Definition sub_access (pf : platform) (m : memory) (f : sub_format) (w x y k : Z) : Z :=
  let n := channels (s_conf f) in
  let ppw := s_pixels f in
  let p := y * w + x in
  let '(i, q) := if s_aligned f then (y * ((w + ppw - 1) / ppw) + x / ppw, x mod ppw) else (p / ppw, p mod ppw) in
  let pixel := match s_order f with Little => q | Big => ppw - 1 - q end in
  let channel := n - 1 - place (s_conf f) k in
  bits_at ((pixel * n + channel) * s_bits f) (s_bits f) (word pf m (s_type f) i).

(* The number of bits of a channel *)
Definition int_depth (f : int_format) : Z := i_bits f * i_words f.

(* Whether a format is valid: buffer_format.hpp:97-106, 142-164, 210-218 *)
Definition int_format_ok (pf : platform) (f : int_format) : Prop :=
  1 <= i_bits f /\ 1 <= i_words f /\ i_bits f <= nbits pf (i_type f) /\ i_words f * i_bits f < 2 ^ 31.
Definition fields_width (l : list bit_field) : Z := fold_right Z.add 0 (map (fun g => fwidth g + fgap g) l).
Definition packed_format_ok (pf : platform) (f : packed_format) : Prop :=
  1 <= p_bits f /\ 1 <= p_words f /\ p_bits f <= nbits pf (p_type f) /\ p_words f * p_bits f < 2 ^ 31 /\
  channels (p_conf f) <= 8 /\
  let l := firstn (Z.to_nat (channels (p_conf f))) (p_fields f) in
  (forall g, In g l -> 1 <= fwidth g /\ 0 <= fgap g) /\ fields_width l <= p_words f * p_bits f.
Definition sub_format_ok (pf : platform) (f : sub_format) : Prop :=
  1 <= s_bits f /\ 1 <= s_pixels f /\ s_pixels f * channels (s_conf f) * s_bits f <= nbits pf (s_type f).

(* The members of a format are of type int, and there are 8 bit fields. *)
Definition int_t (v : Z) : Prop := - 2 ^ 31 <= v < 2 ^ 31.
Definition format_t (f : format) : Prop :=
  match f with
  | FInt f => int_t (i_bits f) /\ int_t (i_words f) /\ conf_ok (i_conf f)
  | FPacked f => int_t (p_bits f) /\ int_t (p_words f) /\ conf_ok (p_conf f) /\
      length (p_fields f) = 8%nat /\ forall g, In g (p_fields f) -> int_t (fwidth g) /\ int_t (fgap g)
  | FSub f => int_t (s_bits f) /\ int_t (s_pixels f) /\ conf_ok (s_conf f)
  | FFloat | FIndexed => True
  end.

Definition format_ok (pf : platform) (f : format) : Prop :=
  match f with
  | FInt f => int_format_ok pf f
  | FPacked f => packed_format_ok pf f
  | FSub f => sub_format_ok pf f
  | FFloat | FIndexed => True
  end.

Definition format_conf (f : format) : channel_conf :=
  match f with
  | FInt f => i_conf f | FPacked f => p_conf f | FSub f => s_conf f
  | FFloat | FIndexed => Conf Lum false false false
  end.

Definition access (pf : platform) (m : memory) (f : format) (w x y k : Z) : Z :=
  match f with
  | FInt f => int_access pf m f w x y k
  | FPacked f => packed_access pf m f w x y k
  | FSub f => sub_access pf m f w x y k
  | FFloat | FIndexed => 0
  end.

(* The number of bits of a channel *)
Definition depth (f : format) (k : Z) : Z :=
  match f with
  | FInt f => i_bits f * i_words f
  | FPacked f => fwidth (nth (Z.to_nat (place (p_conf f) k)) (firstn (Z.to_nat (channels (p_conf f))) (p_fields f)) (Field 0 0))
  | FSub f => s_bits f
  | FFloat | FIndexed => 0
  end.

(* Pixels stored in memory according to one format can be accessed as though they were
   stored according to the other one: the same color space and alpha channel, the same
   number of bits in every channel, and the same value of every channel of every pixel *)
Definition same_pixels (pf : platform) (f g : format) : Prop :=
  cspace (format_conf g) = cspace (format_conf f) /\ has_alpha (format_conf g) = has_alpha (format_conf f) /\
  forall k, 0 <= k < channels (format_conf f) ->
    depth g k = depth f k /\
    forall m w x y, memory_ok m -> 0 <= x < w -> 0 <= y -> access pf m g w x y k = access pf m f w x y k.

(* What libpng takes as the value of a channel (gray or red, green, blue, then alpha) of
   the pixel at position x from the bytes of a row: 8 and 16 bits in memory are in big
   endian order unless swap_bytes, and pixels of less than 8 bits have the first pixel in the
   most significant bits unless swap_bits; with alpha_first, alpha is before the colors
   (no effect without alpha), and with bgr, the colors are in opposite order (no effect for gray). *)
Definition png_channels (g : png_format) : Z := (if g_rgb g then 3 else 1) + (if g_alpha g then 1 else 0).
Definition png_place (g : png_format) (k : Z) : Z :=
  let colors := if g_rgb g then 3 else 1 in
  if k =? colors then (if g_alpha_first g then 0 else colors)
  else (if g_rgb g && g_bgr g then colors - 1 - k else k) + (if g_alpha g && g_alpha_first g then 1 else 0).
Definition png_access (row : Z -> Z) (g : png_format) (x k : Z) : Z :=
  let i := x * png_channels g + png_place g k in
  if g_depth g =? 8 then row i
  else if g_depth g =? 16 then
    (if g_swap_bytes g then row (2 * i) + 256 * row (2 * i + 1) else 256 * row (2 * i) + row (2 * i + 1))
  else
    let ppb := 8 / g_depth g in
    let q := i mod ppb in
    bits_at ((if g_swap_bits g then q else ppb - 1 - q) * g_depth g) (g_depth g) (row (i / ppb)).

(* The rows are what is stored in memory according to the format. *)
Definition png_matches (pf : platform) (f : format) (w : Z) (g : png_format) : Prop :=
  cspace (format_conf f) = (if g_rgb g then RGB else Lum) /\ has_alpha (format_conf f) = g_alpha g /\
  forall k, 0 <= k < channels (format_conf f) ->
    depth f k = g_depth g /\
    forall m x y, memory_ok m -> 0 <= x < w -> 0 <= y ->
      png_access (fun i => m (y * g_bytes_per_row g + i)) g x k = access pf m f w x y k.

(* The conditions under which reinterpretation as an integer format is right.  For packed
   formats: the order of channels is then the one that is assumed by the implementation.  For
   subword formats: there is one channel per word. *)
Definition good_cast (pf : platform) (f : format) (wt : itype) : Prop :=
  match f with
  | FInt _ | FFloat | FIndexed => True
  | FPacked f =>
    channels (p_conf f) = 1 \/
    p_words f = channels (p_conf f) /\
    (if itype_eqb wt (p_type f) then p_order f = Little
     else (2 <= nbytes pf (p_type f))%nat /\ forall e, native pf (p_type f) e -> e <> p_order f)
  | FSub f => channels (s_conf f) = 1 /\ s_pixels f = 1
  end.
