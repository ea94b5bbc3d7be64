(* Model of the reading of blocks of pixels from an image, inside and outside of the
   boundary of the image (src/archon/image/reader.hpp, src/archon/image/reader.cpp), and of
   the clipped writing of blocks of pixels to an image (src/archon/image/writer.cpp,
   src/archon/image/writer.hpp).

   A canvas is a block of pixels in memory.  An access of a pixel outside of the canvas, an
   overflow of int, and a failing assertion are None.  A tray is a part of a canvas.

   Simplifications: pixels are values of an abstract type (P as seen by the caller, R as
   stored in the image that is written to), so the conversions between representations,
   color spaces and numbers of channels are abstract functions on single pixels.  The
   memory layout (strides) is not modelled, different pixels of a canvas do not overlap.
   Exceptions (memory allocation, virtual functions of the image) are not modelled. *)
From Coq Require Import ZArith Bool List.
From Verif Require Import CInt IntModel PixelBoxModel.
From Verif Require Import ArrLib.
Import ListNotations.
Open Scope Z_scope.

Record canvas (P : Type) := Canvas { cw : Z; ch : Z; cpix : Z -> Z -> P }.
Arguments Canvas {P} cw ch cpix.
Arguments cw {P} c.
Arguments ch {P} c.
Arguments cpix {P} c x y.

Definition inside {P} (c : canvas P) (x y : Z) : bool :=
  (0 <=? x) && (x <? cw c) && (0 <=? y) && (y <? ch c).

Definition get_px {P} (c : canvas P) (x y : Z) : option P :=
  if inside c x y then Some (cpix c x y) else None.

Definition set_px {P} (c : canvas P) (x y : Z) (p : P) : option (canvas P) :=
  if inside c x y
  then Some (Canvas (cw c) (ch c) (fun x' y' => if (x' =? x) && (y' =? y) then p else cpix c x' y'))
  else None.

(* for (int i = i; i < i + n; ++i) *)
Fixpoint loop {S} (n : nat) (i : Z) (f : Z -> S -> option S) (s : S) : option S :=
  match n with
  | O => Some s
  | Datatypes.S n' => let? s' := f i s in loop n' (i + 1) f s'
  end.

(* for (int y = 0; y < height; ++y) for (int x = 0; x < width; ++x) *)
Definition loop2 {S} (sz : size) (f : Z -> Z -> S -> option S) (s : S) : option S :=
  loop (Z.to_nat (height sz)) 0 (fun y s => loop (Z.to_nat (width sz)) 0 (fun x s => f x y s) s) s.

(* A tray: the position of its first pixel in the canvas, and its size (Tray: tray.hpp,
   Iter: iter.hpp).  The position is a pointer, so arithmetic on it is not arithmetic on
   int. *)
Record tray := Tray { tx : Z; ty : Z; tsize : size }.

(* Pos::operator- and Pos::operator+ : pixel_pos.hpp:276-285 *)
Definition pos_diff (a b : pos) : option size :=
  let? x := isub (px a) (px b) in
  let? y := isub (py a) (py b) in
  Some (Size x y).
Definition pos_add (a : pos) (s : size) : option pos :=
  let? x := iadd (px a) (width s) in
  let? y := iadd (py a) (height s) in
  Some (Pos x y).

(* Size::operator- : pixel_size.hpp:339-342 *)
Definition size_sub (a b : size) : option size :=
  let? w := isub (width a) (width b) in
  let? h := isub (height a) (height b) in
  Some (Size w h).

(* Size::contains: pixel_size.hpp:282-285 *)
Definition size_contains (a b : size) : bool :=
  (width b <=? width a) && (height b <=? height a).

(* the conversion from Size to Box: pixel_box.hpp:184-188 *)
Definition box_of (s : size) : box := Box (Pos 0 0) s.

Definition assert (b : bool) : option unit := if b then Some tt else None.

(* Tray::subtray: tray.hpp:204-208 *)
Definition subtray (t : tray) (b : box) (origin : pos) : option tray :=
  let? d := pos_diff (bpos b) origin in
  Some (Tray (tx t + width d) (ty t + height d) (bsize b)).

(* Iter::copy_to: iter.hpp:335-345, to a tray (Tray::copy_from: tray.hpp:218-222) from the
   pixel at (sx, sy) of the same canvas *)
Definition copy_from {P} (t : tray) (sx sy : Z) (c : canvas P) : option (canvas P) :=
  loop2 (tsize t) (fun x y c =>
    let? p := get_px c (sx + x) (sy + y) in
    set_px c (tx t + x) (ty t + y) p) c.

(* Iter::fill: iter.hpp:348-355, by way of Tray::fill *)
Definition fill {P} (t : tray) (p : P) (c : canvas P) : option (canvas P) :=
  loop2 (tsize t) (fun x y c => set_px c (tx t + x) (ty t + y) p) c.

(* Reader::subdivide: reader.hpp:1160-1211.  The boxes are in the order in which the
   function is called for them.  The three loops are bounded by fuel. *)
Definition block_width : Z := 64.
Definition block_height : Z := 64.
Definition block_area : Z := block_width * block_height.

(* the inner loop: 1183-1192 *)
Fixpoint subdivide_row (fuel : nat) (b : box) (max_w h x y : Z) : option (list box) :=
  match fuel with
  | O => None
  | S fuel' =>
    let? remaining_w := isub (width (bsize b)) x in
    let w := Z.min remaining_w max_w in
    let? p := pos_add (bpos b) (Size x y) in
    let c := Box p (Size w h) in
    let? x' := iadd x w in
    if x' <? width (bsize b) then
      let? rest := subdivide_row fuel' b max_w h x' y in
      Some (c :: rest)
    else Some [c]
  end.

(* the outer loop: 1167-1194 *)
Fixpoint subdivide_wide (fuel : nat) (b : box) (y : Z) : option (list box) :=
  match fuel with
  | O => None
  | S fuel' =>
    let? remaining_h := isub (height (bsize b)) y in
    if (remaining_h =? 0) then Some [] else
    let (h, max_w) := if block_height <=? remaining_h then (block_height, block_width)
                      else (remaining_h, Z.quot block_area remaining_h) in
    let? row := subdivide_row (S (Z.to_nat (width (bsize b)))) b max_w h 0 y in
    let? y' := iadd y h in
    let? rest := subdivide_wide fuel' b y' in
    Some (row ++ rest)
  end.

(* the loop for narrow boxes: 1201-1209 *)
Fixpoint subdivide_narrow (fuel : nat) (b : box) (max_h y : Z) : option (list box) :=
  match fuel with
  | O => None
  | S fuel' =>
    let? remaining_h := isub (height (bsize b)) y in
    let h := Z.min remaining_h max_h in
    let? p := pos_add (bpos b) (Size 0 y) in
    let c := Box p (Size (width (bsize b)) h) in
    let? y' := iadd y h in
    if y' <? height (bsize b) then
      let? rest := subdivide_narrow fuel' b max_h y' in
      Some (c :: rest)
    else Some [c]
  end.

Definition subdivide (b : box) : option (list box) :=
  let? _ := assert (box_valid b) in
  if block_width <=? width (bsize b) then
    subdivide_wide (S (Z.to_nat (height (bsize b)))) b 0
  else if 0 <? width (bsize b) then
    subdivide_narrow (S (Z.to_nat (height (bsize b)))) b (Z.quot block_area (width (bsize b))) 0
  else Some [].

(* Reader::FalloffMode: reader.hpp:725-729 *)
Inductive mode := Background | Edge | Repeat.

(* Reader::adjust: reader.cpp:69-186.  Some None is the return value false, and otherwise
   the result is the new read_pos, progen_pos, and progen_size. *)
Definition adjust (m : mode) (image_size read_pos read_size : Z) : option (option (Z * Z * Z)) :=
  let? _ := assert (0 <? image_size) in
  let? _ := assert (0 <? read_size) in
  let? neg := isub 0 read_size in
  match m with
  | Background =>
    if 0 <=? read_pos then
      if read_pos <? image_size then
        let? d := isub image_size read_pos in
        if read_size <=? d then Some (Some (read_pos, read_pos, read_size))
        else Some (Some (read_pos, read_pos, d))
      else Some None
    else if neg <? read_pos then
      let? e := iadd read_pos read_size in
      if e <=? image_size then Some (Some (read_pos, 0, e))
      else Some (Some (read_pos, 0, image_size))
    else Some None
  | Edge =>
    if 0 <=? read_pos then
      if read_pos <? image_size then
        let? d := isub image_size read_pos in
        if read_size <=? d then Some (Some (read_pos, read_pos, read_size))
        else Some (Some (read_pos, read_pos, d))
      else
        let? p := isub image_size 1 in
        Some (Some (p, p, 1))
    else if neg <? read_pos then
      let? e := iadd read_pos read_size in
      if e <=? image_size then Some (Some (read_pos, 0, e))
      else Some (Some (read_pos, 0, image_size))
    else
      let? p := isub 1 read_size in
      Some (Some (p, 0, 1))
  | Repeat =>
    let? rem := int_periodic_mod t_int t_int read_pos image_size in
    let? d := isub image_size rem in
    if read_size <=? d then Some (Some (rem, rem, read_size))
    else
      let? e := isub read_size d in
      if image_size <=? e then
        let? p := isub rem image_size in
        Some (Some (p, 0, image_size))
      else Some (Some (rem, rem, Z.min read_size image_size))
  end.

(* The image attached to the reader, with direct or with indexed color.  The pixels of an
   image with direct color, and the colors in the palette, are as they are after
   conversion to the representation of the tray. *)
Inductive source (P : Type) :=
| Direct (img : canvas P)
| Indexed (img : canvas nat) (palette : list P).
Arguments Direct {P} img.
Arguments Indexed {P} img palette.

Definition source_size {P} (s : source P) : size :=
  match s with Direct c => Size (cw c) (ch c) | Indexed c _ => Size (cw c) (ch c) end.

(* Image::read (the pixels must be inside of the image): image.hpp, and Reader::read:
   reader.hpp:1519-1602, with the palette lookup of lines 1593-1599 *)
Definition read_px {P} (s : source P) (bg : P) (x y : Z) : option P :=
  match s with
  | Direct c => get_px c x y
  | Indexed c palette =>
    let? index := get_px c x y in
    if (index <? length palette)%nat then nth_error palette index
    else Some bg
  end.

Definition read {P} (s : source P) (bg : P) (p : pos) (t : tray) (c : canvas P) : option (canvas P) :=
  loop2 (tsize t) (fun x y c =>
    let? q := read_px s bg (px p + x) (py p + y) in
    set_px c (tx t + x) (ty t + y) q) c.

(* the while loops in Reader::read_e: reader.hpp:1446-1449 and 1502-1505; the new relative
   position and the new canvas *)
Fixpoint repeat_horz {P} (fuel : nat) (t : tray) (rx ry : Z) (psize : size) (sx sy : Z) (c : canvas P) :
  option (Z * canvas P) :=
  match fuel with
  | O => None
  | S fuel' =>
    let? d := isub (width (tsize t)) rx in
    if width psize <=? d then
      let? u := subtray t (Box (Pos rx ry) psize) (Pos 0 0) in
      let? c := copy_from u sx sy c in
      let? rx' := iadd rx (width psize) in
      repeat_horz fuel' t rx' ry psize sx sy c
    else Some (rx, c)
  end.

Fixpoint repeat_vert {P} (fuel : nat) (t : tray) (rx ry : Z) (ph : Z) (sx sy : Z) (c : canvas P) :
  option (Z * canvas P) :=
  match fuel with
  | O => None
  | S fuel' =>
    let? d := isub (height (tsize t)) ry in
    if ph <=? d then
      let? u := subtray t (Box (Pos rx ry) (Size (width (tsize t)) ph)) (Pos 0 0) in
      let? c := copy_from u sx sy c in
      let? ry' := iadd ry ph in
      repeat_vert fuel' t rx ry' ph sx sy c
    else Some (ry, c)
  end.

(* the lambda function bgcolor_fill in Reader::read_e: reader.hpp:1332-1347 *)
Definition bgcolor_fill {P} (t : tray) (bg : P) (rel : pos) (sz : size) (c : canvas P) : option (canvas P) :=
  let? u := subtray t (Box rel sz) (Pos 0 0) in fill u bg c.

(* the four quadrants: reader.hpp:1371-1395 *)
Definition read_quads {P} (s : source P) (bg : P) (t : tray) (rpos : pos) (progen : box) (c : canvas P) :
  option (canvas P) :=
  let isz := source_size s in
  let? dx := isub (width isz) (px (bpos progen)) in
  let? dy := isub (height isz) (py (bpos progen)) in
  let pw := width (bsize progen) in
  let ph := height (bsize progen) in
  let mw := Z.min dx pw in
  let mh := Z.min dy ph in
  let? u := subtray t (Box (bpos progen) (Size mw mh)) rpos in
  let? c := read s bg (bpos progen) u c in
  let? c :=
    if mw <? pw then
      let pos_2 := Pos 0 (py (bpos progen)) in
      let? w := isub pw mw in
      let? q := pos_add pos_2 (Size (width isz) 0) in
      let? u := subtray t (Box q (Size w mh)) rpos in
      read s bg pos_2 u c
    else Some c in
  let? c :=
    if mh <? ph then
      let pos_2 := Pos (px (bpos progen)) 0 in
      let? h := isub ph mh in
      let? q := pos_add pos_2 (Size 0 (height isz)) in
      let? u := subtray t (Box q (Size mw h)) rpos in
      read s bg pos_2 u c
    else Some c in
  if (mw <? pw) && (mh <? ph) then
    let pos_2 := Pos 0 0 in
    let? sz := size_sub (bsize progen) (Size mw mh) in
    let? q := pos_add pos_2 isz in
    let? u := subtray t (Box q sz) rpos in
    read s bg pos_2 u c
  else Some c.

(* Expansion in the horizontal direction: reader.hpp:1403-1454.  (ax, ay) is rel_pos_1,
   which is also diff, and (ex, ey) is rel_pos_2. *)
Definition expand_horz {P} (m : mode) (iw : Z) (bg : P) (t : tray) (psize : size) (ax ay ex : Z) (c : canvas P) :
  option (canvas P) :=
  let W := width (tsize t) in
  match m with
  | Background =>
    let? c := if 0 <? ax then bgcolor_fill t bg (Pos 0 ay) (Size ax (height psize)) c else Some c in
    if ex <? W then
      let? w := isub W ex in
      bgcolor_fill t bg (Pos ex ay) (Size w (height psize)) c
    else Some c
  | Edge =>
    let? c :=
      if 0 <? ax then
        let? _ := assert (1 <=? width psize) in
        loop (Z.to_nat ax) 0 (fun i c =>
          let? q := pos_add (Pos 0 ay) (Size i 0) in
          let? u := subtray t (Box q (Size 1 (height psize))) (Pos 0 0) in
          copy_from u (tx t + ax) (ty t + ay) c) c
      else Some c in
    if ex <? W then
      let? _ := assert (1 <=? width psize) in
      let? d := isub (width psize) 1 in
      let? d := iadd ax d in
      let? n := isub W ex in
      loop (Z.to_nat n) 0 (fun i c =>
        let? q := pos_add (Pos ex ay) (Size i 0) in
        let? u := subtray t (Box q (Size 1 (height psize))) (Pos 0 0) in
        copy_from u (tx t + d) (ty t + ay) c) c
    else Some c
  | Repeat =>
    let? c :=
      if 0 <? ax then
        let? _ := assert (width psize =? iw) in
        let? u := subtray t (Box (Pos 0 ay) (Size ax (height psize))) (Pos 0 0) in
        copy_from u (tx t + width psize) (ty t + ay) c
      else Some c in
    if ex <? W then
      let? _ := assert (width psize =? iw) in
      let? (rx, c) := repeat_horz (S (Z.to_nat W)) t ex ay psize (tx t + ax) (ty t + ay) c in
      let? w := isub W rx in
      let? u := subtray t (Box (Pos rx ay) (Size w (height psize))) (Pos 0 0) in
      copy_from u (tx t + ax) (ty t + ay) c
    else Some c
  end.

(* Expansion in the vertical direction: reader.hpp:1457-1510 *)
Definition expand_vert {P} (m : mode) (ih : Z) (bg : P) (t : tray) (psize : size) (ay ey : Z) (c : canvas P) :
  option (canvas P) :=
  let W := width (tsize t) in
  let H := height (tsize t) in
  match m with
  | Background =>
    let? c := if 0 <? ay then bgcolor_fill t bg (Pos 0 0) (Size W ay) c else Some c in
    if ey <? H then
      let? h := isub H ey in
      bgcolor_fill t bg (Pos 0 ey) (Size W h) c
    else Some c
  | Edge =>
    let? c :=
      if 0 <? ay then
        let? _ := assert (1 <=? height psize) in
        loop (Z.to_nat ay) 0 (fun i c =>
          let? q := pos_add (Pos 0 0) (Size 0 i) in
          let? u := subtray t (Box q (Size W 1)) (Pos 0 0) in
          copy_from u (tx t) (ty t + ay) c) c
      else Some c in
    if ey <? H then
      let? _ := assert (1 <=? height psize) in
      let? d := iadd ay (height psize) in
      let? d := isub d 1 in
      let? n := isub H ey in
      loop (Z.to_nat n) 0 (fun i c =>
        let? q := pos_add (Pos 0 ey) (Size 0 i) in
        let? u := subtray t (Box q (Size W 1)) (Pos 0 0) in
        copy_from u (tx t) (ty t + d) c) c
    else Some c
  | Repeat =>
    let? c :=
      if 0 <? ay then
        let? _ := assert (height psize =? ih) in
        let? u := subtray t (Box (Pos 0 0) (Size W ay)) (Pos 0 0) in
        copy_from u (tx t) (ty t + height psize) c
      else Some c in
    if ey <? H then
      let? _ := assert (height psize =? ih) in
      let? (ry, c) := repeat_vert (S (Z.to_nat H)) t 0 ey (height psize) (tx t) (ty t + ay) c in
      let? h := isub H ry in
      let? u := subtray t (Box (Pos 0 ry) (Size W h)) (Pos 0 0) in
      copy_from u (tx t) (ty t + ay) c
    else Some c
  end.

(* Reader::read_e: reader.hpp:1243-1516.  In line 1484, the components of
   diff + progen.size - 1 in the horizontal direction, which are then dropped by proj_y(),
   are computed as well. *)
Definition read_e {P} (s : source P) (hm vm : mode) (bg : P) (p : pos) (t : tray) (c : canvas P) :
  option (canvas P) :=
  let isz := source_size s in
  let? contained := contained_in (Box p (tsize t)) (box_of isz) in
  if contained then read s bg p t c else
  if size_empty (tsize t) then Some c else
  let all_background := bgcolor_fill t bg (Pos 0 0) (tsize t) c in
  if size_empty isz then all_background else
  let? ah := adjust hm (width isz) (px p) (width (tsize t)) in
  match ah with
  | None => all_background
  | Some (rx, gx, gw) =>
    let? av := adjust vm (height isz) (py p) (height (tsize t)) in
    match av with
    | None => all_background
    | Some (ry, gy, gh) =>
      let progen := Box (Pos gx gy) (Size gw gh) in
      let? b := contained_in (Box (Pos gx gy) (Size 0 0)) (box_of isz) in
      let? _ := assert b in
      let? _ := assert (negb (size_empty (Size gw gh))) in
      let? _ := assert (size_contains isz (Size gw gh)) in
      let? b := contains (Box (Pos rx ry) (tsize t)) progen in
      let? _ := assert b in
      let? c := read_quads s bg t (Pos rx ry) progen c in
      let? diff := pos_diff (Pos gx gy) (Pos rx ry) in
      let? rel_1 := pos_add (Pos 0 0) diff in
      let? rel_2 := pos_add rel_1 (Size gw gh) in
      let? c := expand_horz hm (width isz) bg t (Size gw gh) (px rel_1) (py rel_1) (px rel_2) c in
      let? _ := (match vm with
                 | Edge => if py rel_2 <? height (tsize t)
                           then let? d := iadd (width diff) gw in let? _ := isub d 1 in Some tt else Some tt
                 | _ => Some tt
                 end) in
      expand_vert vm (height isz) bg t (Size gw gh) (py rel_1) (py rel_2) c
    end
  end.

Fixpoint each {A S} (l : list A) (f : A -> S -> option S) (s : S) : option S :=
  match l with [] => Some s | a :: r => let? s' := f a s in each r f s' end.

(* Reader::get_block_a: reader.hpp:979-988, with Reader::read_g (1214-1240) for the case
   where no conversion is needed, or with the conversion taken to be part of the pixel
   values *)
Definition get_block {P} (s : source P) (hm vm : mode) (bg : P) (p : pos) (t : tray) (c : canvas P) :
  option (canvas P) :=
  let? l := subdivide (Box p (tsize t)) in
  each l (fun b c => let? u := subtray t b p in read_e s hm vm bg (bpos b) u c) c.

(* Writing.  R is the type of pixels as stored in the image, P is the type of pixels as
   they are processed (floating point components in the color space of the image, and with
   alpha channel). *)
Record pixel_ops (R P : Type) := PixelOps {
  dec : R -> P;                (* Reader::read, with ensure_alpha *)
  enc : P -> R;                (* Writer::write: writer.cpp:287-330 *)
  over : P -> P -> P;          (* image::blend with BlendMode::over *)
  fade : P -> P                (* multiplication by the opacity *)
}.
Arguments dec {R P} p _.
Arguments enc {R P} p _.
Arguments over {R P} p _ _.
Arguments fade {R P} p _.

(* WritableImage::write (image.hpp) from a canvas of the size of the written box, with a
   function on pixels applied first *)
Definition image_write {R P} (f : P -> R) (p : pos) (work : canvas P) (t : tray) (img : canvas R) :
  option (canvas R) :=
  loop2 (tsize t) (fun x y img =>
    let? q := get_px work (tx t + x) (ty t + y) in
    set_px img (px p + x) (py p + y) (f q)) img.

(* the reading and blending loops: writer.cpp:264-281; tray_2 is a canvas of the same size,
   with arbitrary contents (junk) before it is used.  Simplification: a pixel is read when
   it is blended. *)
Definition blend_block {R P} (ops : pixel_ops R P) (junk : Z -> Z -> P) (p : pos) (work : canvas P) (t : tray) (img : canvas R) :
  option (canvas P) :=
  loop2 (tsize t) (fun x y c =>
    let? below := get_px img (px p + x) (py p + y) in
    let? above := get_px work (tx t + x) (ty t + y) in
    set_px c x y (over ops above (dec ops below)))
    (Canvas (width (tsize t)) (height (tsize t)) junk).

Definition whole {P} (c : canvas P) : tray := Tray 0 0 (Size (cw c) (ch c)).

(* Writer::write_b: writer.cpp:256-284 *)
Definition write_b {R P} (ops : pixel_ops R P) (blending : bool) (junk : Z -> Z -> P) (p : pos) (work : canvas P) (t : tray)
  (img : canvas R) : option (canvas R) :=
  if negb blending then image_write (enc ops) p work t img
  else
    let? c := blend_block ops junk p work t img in
    image_write (enc ops) p c (whole c) img.

(* Writer::fill: writer.cpp:48-146.  raw is the color as passed to WritableImage::fill when
   there is no blending, color is the color of the slot. *)
Definition writer_fill {R P} (ops : pixel_ops R P) (no_blending : bool) (junk : Z -> Z -> P) (raw : R) (color : P)
  (area : box) (img : canvas R) : option (canvas R) :=
  let? (ok, b) := clip (box_of (Size (cw img) (ch img))) area in
  if negb ok then Some img else
  if no_blending then fill (Tray (px (bpos b)) (py (bpos b)) (bsize b)) raw img
  else
    let? l := subdivide b in
    each l (fun sub img =>
      let work := Canvas (width (bsize sub)) (height (bsize sub)) (fun _ _ => fade ops color) in
      let? c := blend_block ops junk (bpos sub) work (whole work) img in
      image_write (enc ops) (bpos sub) c (whole c) img) img.

(* Writer::put_image_a: writer.cpp:149-207.  With lossless, the pixels are written as they
   are read (copy), otherwise they are faded, blended and encoded.  The contents of the
   workspace before it is used is arbitrary (junk).  The reader is taken to be attached to
   a different image. *)
Definition put_image {R P} (ops : pixel_ops R P) (lossless blending : bool) (copy : P -> R) (junk : Z -> Z -> P)
  (s : source P) (hm vm : mode) (bg : P) (p : pos) (b : box) (img : canvas R) : option (canvas R) :=
  let? (ok, destin) := clip (box_of (Size (cw img) (ch img))) (Box p (bsize b)) in
  if negb ok then Some img else
  let? l := subdivide destin in
  each l (fun sub img =>
    let? disp := pos_diff (bpos sub) p in
    let? opos := pos_add (bpos b) disp in
    let work := Canvas (width (bsize sub)) (height (bsize sub)) junk in
    let? work := read_e s hm vm bg opos (whole work) work in
    if lossless then image_write copy (bpos sub) work (whole work) img
    else
      let work := Canvas (cw work) (ch work) (fun x y => fade ops (cpix work x y)) in
      write_b ops blending junk (bpos sub) work (whole work) img) img.

(* Writer::put_block_a: writer.hpp:582-654, alternatives 1 (direct) and 3 (2 is like 3
   without blending).  conv is the conversion of pixels of the tray (convert_2). *)
Definition put_block {Q R P} (ops : pixel_ops R P) (direct blending : bool) (copy : Q -> R) (conv : Q -> P)
  (junk : Z -> Z -> P) (p : pos) (block : canvas Q) (t : tray) (img : canvas R) : option (canvas R) :=
  let? (ok, b) := clip (box_of (Size (cw img) (ch img))) (Box p (tsize t)) in
  if negb ok then Some img else
  if direct then
    let? u := subtray t b p in
    image_write copy (bpos b) block u img
  else
    let? l := subdivide b in
    each l (fun sub img =>
      let? u := subtray t sub p in
      let? work := loop2 (tsize u) (fun x y c =>
        let? q := get_px block (tx u + x) (ty u + y) in
        set_px c x y (fade ops (conv q)))
        (Canvas (width (bsize sub)) (height (bsize sub)) junk) in
      write_b ops blending junk (bpos sub) work (whole work) img) img.
