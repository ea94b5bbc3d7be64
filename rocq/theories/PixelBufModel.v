(* Model of the parts of the pixel formats that several of them share: the access to
   bit compounds that are made of several words, and the loops over the pixels of an
   area (src/archon/image/packed_pixel_format.hpp, integer_pixel_format.hpp,
   subword_pixel_format.hpp, indexed_pixel_format.hpp).

   A buffer is the list of its words; an access outside of it is None, and so is a
   pointer that is neither into the buffer nor one past its end.  A tray that is read
   from is a function from x and y to pixels.  A tray that is written to is returned as
   a list of rows.  The placement of pixels in the memory of a tray is not modelled. *)
From Coq Require Import ZArith Bool List.
From Verif Require Import CInt IntModel.
From Verif Require Import PixelBoxModel BitMediumModel.
From Verif Require Import ArrLib.
Import ListNotations.
Open Scope Z_scope.

(* *ptr and *ptr = v, for a pointer at offset i *)
Definition rd (buf : list Z) (i : Z) : option Z :=
  if 0 <=? i then nth_error buf (Z.to_nat i) else None.
Definition wr (buf : list Z) (i : Z) (v : Z) : option (list Z) :=
  if 0 <=? i then set_nth buf (Z.to_nat i) v else None.

(* ptr + d *)
Definition padd (buf : list Z) (off d : Z) : option Z :=
  let r := off + d in
  if (0 <=? r) && (r <=? Z.of_nat (length buf)) then Some r else None.

Definition t_ptrdiff : ity := ITy 64 true.

(* an index computed in std::ptrdiff_t *)
Definition pdiff (z : Z) : option Z := if in_rangeb t_ptrdiff z then Some z else None.

(* Bit compounds made of D words of type W with B used bits each, held in the type V.
   little tells whether the word order is little-endian. *)
Section Words.
  Variables W V : ity.
  Variables B D : Z.
  Variable little : bool.

  (* map_word_index: packed_pixel_format.hpp:553-565, indexed_pixel_format.hpp:620-632 *)
  Definition map_word_index (i : Z) : option Z :=
    if (0 <=? i) && (i <? D) then Some (if little then i else (D - 1) - i) else None.

  (* the loop in PackedPixelFormat::read_pixel: packed_pixel_format.hpp:423-426, and in
     IndexedPixelFormat::read_compound: indexed_pixel_format.hpp:563-566 *)
  Fixpoint read_words (n : nat) (i : Z) (buf : list Z) (off : Z) (value : Z) : option Z :=
    match n with
    | O => Some value
    | S n =>
      let? j := map_word_index i in
      let shift := j * B in
      let? w := rd buf (off + i) in
      let? u := unpack_int B W w in
      let? s := cshl (V, wrap V u) shift in
      read_words n (i + 1) buf off (wrap V (snd (cor (V, value) s)))
    end.

  (* IndexedPixelFormat::read_compound: indexed_pixel_format.hpp:560-568 *)
  Definition read_compound (buf : list Z) (off : Z) : option Z := read_words (Z.to_nat D) 0 buf off 0.

  (* the loop in PackedPixelFormat::write_pixel: packed_pixel_format.hpp:473-477, and in
     IndexedPixelFormat::write_compound: indexed_pixel_format.hpp:574-578 *)
  Fixpoint write_words (n : nat) (i : Z) (value : Z) (buf : list Z) (off : Z) : option (list Z) :=
    match n with
    | O => Some buf
    | S n =>
      let? j := map_word_index i in
      let shift := j * B in
      let? s := cshr (V, value) shift in
      let? mask := int_mask V B in
      let value_2 := wrap V (snd (cand s (V, mask))) in
      let? w := pack_int W B V value_2 in
      let? buf := wr buf (off + i) w in
      write_words n (i + 1) value buf off
    end.

  (* IndexedPixelFormat::write_compound: indexed_pixel_format.hpp:572-579 *)
  Definition write_compound (value : Z) (buf : list Z) (off : Z) : option (list Z) :=
    write_words (Z.to_nat D) 0 value buf off.
End Words.

(* Loops over pixels that take up words_per_pixel (D) words each.
   PackedPixelFormat and IntegerPixelFormat have the same code here. *)
Section Raster.
  Variable P : Type.
  Variable D : Z.
  Variable read_pixel : list Z -> Z -> option P.
  Variable write_pixel : P -> list Z -> Z -> option (list Z).

  (* get_pixel_ptr: packed_pixel_format.hpp:400-405, integer_pixel_format.hpp:356-361 *)
  Definition get_pixel_ptr (buf : list Z) (image_width x y : Z) : option Z :=
    let? m := pdiff (y * image_width) in
    let? pixel_index := pdiff (m + x) in
    let? d := pdiff (pixel_index * D) in
    padd buf 0 d.

  (* the inner loop of read: packed_pixel_format.hpp:316-320, integer_pixel_format.hpp:300-304 *)
  Fixpoint read_row (n : nat) (buf : list Z) (source : Z) : option (list P) :=
    match n with
    | O => Some []
    | S n =>
      let? p := read_pixel buf source in
      let? source := padd buf source D in
      let? r := read_row n buf source in
      Some (p :: r)
    end.

  (* the outer loop: packed_pixel_format.hpp:313-321, integer_pixel_format.hpp:297-305 *)
  Fixpoint read_rows (n : nat) (y : Z) (buf : list Z) (image_width : Z) (p : pos) (tray_size : size)
    : option (list (list P)) :=
    match n with
    | O => Some []
    | S n =>
      let? y2 := iadd (py p) y in
      let? source := get_pixel_ptr buf image_width (px p) y2 in
      let? row := read_row (Z.to_nat (width tray_size)) buf source in
      let? r := read_rows n (y + 1) buf image_width p tray_size in
      Some (row :: r)
    end.

  (* ARCHON_ASSERT(image::Box(pos, tray.size).contained_in(image_size)) *)
  Definition assert_contained (p : pos) (s : size) (image_size : size) : option unit :=
    let? r := contained_in (Box p s) (Box (Pos 0 0) image_size) in
    if r then Some tt else None.

  (* read: packed_pixel_format.hpp:308-322, integer_pixel_format.hpp:293-306 *)
  Definition read (buf : list Z) (image_size : size) (p : pos) (tray_size : size)
    : option (list (list P)) :=
    let? _ := assert_contained p tray_size image_size in
    read_rows (Z.to_nat (height tray_size)) 0 buf (width image_size) p tray_size.

  (* the inner loop of write: packed_pixel_format.hpp:333-337, integer_pixel_format.hpp:317-321 *)
  Fixpoint write_row (n : nat) (x y : Z) (tray : Z -> Z -> P) (buf : list Z) (target : Z)
    : option (list Z) :=
    match n with
    | O => Some buf
    | S n =>
      let? buf := write_pixel (tray x y) buf target in
      let? target := padd buf target D in
      write_row n (x + 1) y tray buf target
    end.

  (* the outer loop: packed_pixel_format.hpp:330-338, integer_pixel_format.hpp:314-322 *)
  Fixpoint write_rows (n : nat) (y : Z) (buf : list Z) (image_width : Z) (p : pos) (tray_size : size)
    (tray : Z -> Z -> P) : option (list Z) :=
    match n with
    | O => Some buf
    | S n =>
      let? y2 := iadd (py p) y in
      let? target := get_pixel_ptr buf image_width (px p) y2 in
      let? buf := write_row (Z.to_nat (width tray_size)) 0 y tray buf target in
      write_rows n (y + 1) buf image_width p tray_size tray
    end.

  (* write: packed_pixel_format.hpp:326-339, integer_pixel_format.hpp:310-323 *)
  Definition write (buf : list Z) (image_size : size) (p : pos) (tray_size : size)
    (tray : Z -> Z -> P) : option (list Z) :=
    let? _ := assert_contained p tray_size image_size in
    write_rows (Z.to_nat (height tray_size)) 0 buf (width image_size) p tray_size tray.

  (* std::copy_n(color_2, words_per_pixel, target) *)
  Fixpoint copy_n (words : list Z) (buf : list Z) (off : Z) : option (list Z) :=
    match words with
    | [] => Some buf
    | w :: words =>
      let? buf := wr buf off w in
      copy_n words buf (off + 1)
    end.

  (* the inner loop of fill: packed_pixel_format.hpp:353-356, integer_pixel_format.hpp:337-340 *)
  Fixpoint fill_row (n : nat) (words : list Z) (buf : list Z) (target : Z) : option (list Z) :=
    match n with
    | O => Some buf
    | S n =>
      let? buf := copy_n words buf target in
      let? target := padd buf target D in
      fill_row n words buf target
    end.

  (* the outer loop: packed_pixel_format.hpp:351-357, integer_pixel_format.hpp:335-341 *)
  Fixpoint fill_rows (n : nat) (y : Z) (words : list Z) (buf : list Z) (image_width begin_x end_x : Z)
    : option (list Z) :=
    match n with
    | O => Some buf
    | S n =>
      let? target := get_pixel_ptr buf image_width begin_x y in
      let? buf := fill_row (Z.to_nat (end_x - begin_x)) words buf target in
      fill_rows n (y + 1) words buf image_width begin_x end_x
    end.

  (* fill: packed_pixel_format.hpp:343-358, integer_pixel_format.hpp:327-342.  color_2 is
     an uninitialized array; init stands for its content. *)
  Definition fill (init : list Z) (buf : list Z) (image_size : size) (area : box) (color : P)
    : option (list Z) :=
    let? _ := assert_contained (bpos area) (bsize area) image_size in
    let? color_2 := write_pixel color init 0 in
    let begin := bpos area in
    let? end_x := iadd (px begin) (width (bsize area)) in
    let? end_y := iadd (py begin) (height (bsize area)) in
    fill_rows (Z.to_nat (end_y - py begin)) (py begin) color_2 buf (width image_size) (px begin) end_x.
End Raster.

(* Loops over pixels of which N are stored in each bit compound of D words.
   SubwordPixelFormat and IndexedPixelFormat have the same code here; the compound is a
   single word in the former (D = 1). *)
Section Runs.
  Variable P : Type.
  Variables N D : Z.
  Variable aligned : bool.
  Variable read_c : list Z -> Z -> option Z.
  Variable write_c : Z -> list Z -> Z -> option (list Z).
  Variable get_pixel : Z -> Z -> option P.
  Variable set_pixel : P -> Z -> Z -> option Z.

  (* get_pixel_pos: subword_pixel_format.hpp:455-471, indexed_pixel_format.hpp:540-556. *)
  Definition get_pixel_pos (image_width x y : Z) : option (Z * Z) :=
    if aligned then
      let c := Z.quot x N in
      let p := Z.rem x N in
      let? per_row := int_div_round_up t_int t_int image_width N in
      let? m := pdiff (y * per_row) in
      let? i := pdiff (m + c) in
      Some (i, p)
    else
      let? m := pdiff (y * image_width) in
      let? pixel_index := pdiff (m + x) in
      Some (Z.quot pixel_index N, Z.rem pixel_index N).

  (* for (int p = begin; p < end; ++p) { get_pixel(compound, p, tray(x, y)); ++x; } *)
  Fixpoint get_pixels (n : nat) (p : Z) (compound : Z) : option (list P) :=
    match n with
    | O => Some []
    | S n =>
      let? v := get_pixel compound p in
      let? r := get_pixels n (p + 1) compound in
      Some (v :: r)
    end.

  (* the loop over compounds in the middle of a row: subword_pixel_format.hpp:322-330,
     indexed_pixel_format.hpp:406-414 *)
  Fixpoint read_between (n : nat) (buf : list Z) (source : Z) : option (list P * Z) :=
    match n with
    | O => Some ([], source)
    | S n =>
      let? compound := read_c buf source in
      let? a := get_pixels (Z.to_nat N) 0 compound in
      let? source := padd buf source D in
      let? (r, source) := read_between n buf source in
      Some (a ++ r, source)
    end.

  (* one row of read: subword_pixel_format.hpp:305-343, indexed_pixel_format.hpp:389-427 *)
  Definition run_read_row (buf : list Z) (image_width x y tray_width : Z) : option (list P) :=
    let? x3 := iadd x tray_width in
    let? (bi, bp) := get_pixel_pos image_width x y in
    let? (ei, ep) := get_pixel_pos image_width x3 y in
    let? source := (let? d := pdiff (bi * D) in padd buf 0 d) in
    let? (r, source, begin_pos) :=
      (if bi <? ei then
         let? compound := read_c buf source in
         let? a := get_pixels (Z.to_nat (N - bp)) bp compound in
         let? source := padd buf source D in
         let? (b, source) := read_between (Z.to_nat (ei - bi - 1)) buf source in
         Some (a ++ b, source, 0)
       else if ei =? bi then Some ([], source, bp)
       else None) in
    if begin_pos <? ep then
      let? compound := read_c buf source in
      let? c := get_pixels (Z.to_nat (ep - begin_pos)) begin_pos compound in
      Some (r ++ c)
    else Some r.

  (* subword_pixel_format.hpp:304-344, indexed_pixel_format.hpp:388-428 *)
  Fixpoint run_read_rows (n : nat) (y : Z) (buf : list Z) (image_width : Z) (p : pos) (tray_size : size)
    : option (list (list P)) :=
    match n with
    | O => Some []
    | S n =>
      let? y2 := iadd (py p) y in
      let? row := run_read_row buf image_width (px p) y2 (width tray_size) in
      let? r := run_read_rows n (y + 1) buf image_width p tray_size in
      Some (row :: r)
    end.

  (* read: subword_pixel_format.hpp:300-345, indexed_pixel_format.hpp:383-429 *)
  Definition run_read (buf : list Z) (image_size : size) (p : pos) (tray_size : size)
    : option (list (list P)) :=
    let? _ := assert_contained p tray_size image_size in
    run_read_rows (Z.to_nat (height tray_size)) 0 buf (width image_size) p tray_size.

  (* for (int p = begin; p < end; ++p) { set_pixel(tray(x, y), compound, p); ++x; } *)
  Fixpoint set_pixels (n : nat) (p x y : Z) (tray : Z -> Z -> P) (compound : Z) : option Z :=
    match n with
    | O => Some compound
    | S n =>
      let? compound := set_pixel (tray x y) compound p in
      set_pixels n (p + 1) (x + 1) y tray compound
    end.

  (* subword_pixel_format.hpp:372-381, indexed_pixel_format.hpp:456-465 *)
  Fixpoint write_between (n : nat) (x y : Z) (tray : Z -> Z -> P) (buf : list Z) (target : Z)
    : option (list Z * Z) :=
    match n with
    | O => Some (buf, target)
    | S n =>
      let? compound := set_pixels (Z.to_nat N) 0 x y tray 0 in
      let? buf := write_c compound buf target in
      let? target := padd buf target D in
      write_between n (x + N) y tray buf target
    end.

  (* one row of write: subword_pixel_format.hpp:354-395, indexed_pixel_format.hpp:438-479.
     x2, y2 is the position in the image, and y the row of the tray.  fill has the same
     loops with the same color at all positions (subword_pixel_format.hpp:407-438,
     indexed_pixel_format.hpp:491-522). *)
  Definition run_write_row (buf : list Z) (image_width x2 y2 tray_width y : Z) (tray : Z -> Z -> P)
    : option (list Z) :=
    let? x3 := iadd x2 tray_width in
    let? (bi, bp) := get_pixel_pos image_width x2 y2 in
    let? (ei, ep) := get_pixel_pos image_width x3 y2 in
    let? target := (let? d := pdiff (bi * D) in padd buf 0 d) in
    let? (buf, target, begin_pos, x) :=
      (if bi <? ei then
         let? compound := read_c buf target in
         let? compound := set_pixels (Z.to_nat (N - bp)) bp 0 y tray compound in
         let? buf := write_c compound buf target in
         let? target := padd buf target D in
         let x := N - bp in
         let n := ei - bi - 1 in
         let? (buf, target) := write_between (Z.to_nat n) x y tray buf target in
         Some (buf, target, 0, x + n * N)
       else if ei =? bi then Some (buf, target, bp, 0)
       else None) in
    if begin_pos <? ep then
      let? compound := read_c buf target in
      let? compound := set_pixels (Z.to_nat (ep - begin_pos)) begin_pos x y tray compound in
      write_c compound buf target
    else Some buf.

  (* subword_pixel_format.hpp:353-396, indexed_pixel_format.hpp:437-480 *)
  Fixpoint run_write_rows (n : nat) (y : Z) (buf : list Z) (image_width : Z) (p : pos) (tray_size : size)
    (tray : Z -> Z -> P) : option (list Z) :=
    match n with
    | O => Some buf
    | S n =>
      let? y2 := iadd (py p) y in
      let? buf := run_write_row buf image_width (px p) y2 (width tray_size) y tray in
      run_write_rows n (y + 1) buf image_width p tray_size tray
    end.

  (* write: subword_pixel_format.hpp:349-397, indexed_pixel_format.hpp:433-481 *)
  Definition run_write (buf : list Z) (image_size : size) (p : pos) (tray_size : size)
    (tray : Z -> Z -> P) : option (list Z) :=
    let? _ := assert_contained p tray_size image_size in
    run_write_rows (Z.to_nat (height tray_size)) 0 buf (width image_size) p tray_size tray.

  (* fill: subword_pixel_format.hpp:401-440, indexed_pixel_format.hpp:485-524.  The rows
     are numbered from area.pos.y, and the sum area.pos.y + area.size.height is that of
     the assertion. *)
  Fixpoint run_fill_rows (n : nat) (y : Z) (buf : list Z) (image_width x w : Z) (color : P)
    : option (list Z) :=
    match n with
    | O => Some buf
    | S n =>
      let? buf := run_write_row buf image_width x y w 0 (fun _ _ => color) in
      run_fill_rows n (y + 1) buf image_width x w color
    end.

  Definition run_fill (buf : list Z) (image_size : size) (area : box) (color : P) : option (list Z) :=
    let? _ := assert_contained (bpos area) (bsize area) image_size in
    let? end_y := iadd (py (bpos area)) (height (bsize area)) in
    run_fill_rows (Z.to_nat (end_y - py (bpos area))) (py (bpos area)) buf (width image_size)
      (px (bpos area)) (width (bsize area)) color.
End Runs.
