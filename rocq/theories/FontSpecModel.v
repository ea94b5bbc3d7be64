(* Model of the loading of the specification of the fallback font: load_spec() of font/loader_fallback.cpp, the parsing of code points and
   code point ranges of font/code_point.hpp, and the functions of FaceImpl (font/loader_fallback.cpp) that depend on what was loaded.

   Characters are integers and are not changed by widening and narrowing.  wchar_t is a signed and wint_t an unsigned type of 32 bits, int has
   32 bits.  The lines of the file are given.  None is undefined behavior: overflow of int.  Not modelled: messages. *)
From Coq Require Import ZArith Bool List Arith.
From Verif Require Import CInt IntModel IntTextModel PixelBoxModel WildFilterModel TextParseModel.
From Verif Require Import ArrLib.
Import ListNotations.
Open Scope Z_scope.

(* parse_value() for core::as_int(), decimal: as_int.hpp:207-218.  The type bool is an unsigned type of one bit. *)
Definition parse_int (t : ity) (word : list Z) : option Z :=
  match parse (fun c => c) t 10 SignAuto word 0 with
  | Some (true, v) => Some v
  | _ => None
  end.
Definition t_bool : ity := ITy 1 false.

(* ---- code_point.hpp ---- *)

(* CodePoint::try_from_int: code_point.hpp:103-112 *)
Definition try_from_int (val : Z) : option Z :=
  let ch := wrap t_int val in
  let valid := negb (val <? 0) && (wrap t_uint ch =? val) && negb (val =? 2 ^ 32 - 1) in
  if valid then Some val else None.

(* CodePoint::to_char: code_point.hpp:97-100 *)
Definition to_char (cp : Z) : Z := wrap t_int cp.

(* parse_value for CodePoint: code_point.hpp:134-141 *)
Definition parse_code_point (str : list Z) : option Z :=
  let? val := parse_int t_uint str in
  try_from_int val.

Definition dash : Z := 45.

(* str.find(dash): the substrings before and after the first dash *)
Fixpoint split_dash (str : list Z) : option (list Z * list Z) :=
  match str with
  | [] => None
  | c :: rest =>
    if c =? dash then Some ([], rest)
    else let? (a, b) := split_dash rest in Some (c :: a, b)
  end.

(* parse_value for CodePointRange: code_point.hpp:179-202 *)
Definition parse_range (str : list Z) : option (Z * Z) :=
  match split_dash str with
  | Some (a, b) =>
    let? first := parse_code_point a in
    let? last := parse_code_point b in
    if first <=? last then Some (first, last) else None
  | None =>
    let? cp := parse_code_point str in
    Some (cp, cp)
  end.

(* operator<< for CodePoint: code_point.hpp:127-131 *)
Definition print_code_point (cp : Z) : option (list Z) :=
  match format_a (fun c => c) t_uint false cp 10 1 with Some (Some s) => Some s | _ => None end.

(* operator<< for CodePointRange: code_point.hpp:170-176 *)
Definition print_range (r : Z * Z) : option (list Z) :=
  let (first, last) := r in
  if first <? last then
    let? a := print_code_point first in
    let? b := print_code_point last in
    Some (a ++ [dash] ++ b)
  else print_code_point first.

(* ---- loader_fallback.cpp ---- *)

Section LoadSpec.
(* floating-point numbers, and their parsing (value_parser.hpp) *)
Context {F : Type} (parse_float : list Z -> option F).

(* Glyph: loader_fallback.cpp:97-114 *)
Record glyph := Glyph {
  g_box : box;
  horz_bearing : Z * Z;
  vert_bearing : Z * Z;
  horz_advance : Z;
  vert_advance : Z
}.

(* Spec without code point ranges, glyphs and glyph map: loader_fallback.cpp:117-124 *)
Record metrics := Metrics {
  image_size : size;
  style : bool * bool * bool;         (* bold, italic, monospace *)
  render_size : F * F;
  horz_baseline : Z * Z;              (* offset, spacing *)
  vert_baseline : Z * Z
}.

(* what a line of metrics that is not accepted leaves in the variables *)
Variable left_over : list Z -> metrics -> metrics.

Definition space : Z := 32.
Definition hash : Z := 35.

(* line.substr(0, line.find(hash)): loader_fallback.cpp:168 *)
Fixpoint before_hash (line : list Z) : list Z :=
  match line with
  | [] => []
  | c :: rest => if c =? hash then [] else c :: before_hash rest
  end.

(* core::trim: string.hpp:261-271 *)
Fixpoint trim_front (str : list Z) : list Z :=
  match str with
  | [] => []
  | c :: rest => if c =? space then trim_front rest else str
  end.
Definition trim (str : list Z) : list Z := rev (trim_front (rev (trim_front str))).

(* fields of type int: the identifier stands for the label *)
Definition int_field {St : Type} (label : nat) (set : Z -> St -> St) : field St nat :=
  Field label (fun word st => let? v := parse_int t_int word in Some (set v st)).

(* fields of type bool *)
Definition bool_field {St : Type} (label : nat) (set : bool -> St -> St) : field St nat :=
  Field label (fun word st => let? v := parse_int t_bool word in Some (set (negb (v =? 0)) st)).

(* fields of floating-point type *)
Definition float_field {St : Type} (label : nat) (set : F -> St -> St) : field St nat :=
  Field label (fun word st => let? v := parse_float word in Some (set v st)).

(* the field sequence for code point ranges: loader_fallback.cpp:186 *)
Definition ranges_seq : field_seq (list (Z * Z)) nat :=
  FieldSeq 0%nat (fun word st => let? r := parse_range word in Some (st ++ [r])).

(* the check of the ranges: loader_fallback.cpp:195-204.  False if an error is reported. *)
Fixpoint check_ranges (prev_last : option Z) (ranges : list (Z * Z)) : bool :=
  match ranges with
  | [] => true
  | (first, last) :: ranges =>
    if match prev_last with None => true | Some p => p <? first end then check_ranges (Some last) ranges
    else false
  end.

(* fields of font metrics: loader_fallback.cpp:223-235 *)
Definition metrics_fields : list (field metrics nat) :=
  [ int_field 0 (fun v m => Metrics (Size v (height (image_size m))) (style m) (render_size m) (horz_baseline m) (vert_baseline m));
    int_field 1 (fun v m => Metrics (Size (width (image_size m)) v) (style m) (render_size m) (horz_baseline m) (vert_baseline m));
    bool_field 2 (fun v m =>
      let '(_, b, c) := style m in Metrics (image_size m) (v, b, c) (render_size m) (horz_baseline m) (vert_baseline m));
    bool_field 3 (fun v m =>
      let '(a, _, c) := style m in Metrics (image_size m) (a, v, c) (render_size m) (horz_baseline m) (vert_baseline m));
    bool_field 4 (fun v m =>
      let '(a, b, _) := style m in Metrics (image_size m) (a, b, v) (render_size m) (horz_baseline m) (vert_baseline m));
    float_field 5 (fun v m => Metrics (image_size m) (style m) (v, snd (render_size m)) (horz_baseline m) (vert_baseline m));
    float_field 6 (fun v m => Metrics (image_size m) (style m) (fst (render_size m), v) (horz_baseline m) (vert_baseline m));
    int_field 7 (fun v m => Metrics (image_size m) (style m) (render_size m) (v, snd (horz_baseline m)) (vert_baseline m));
    int_field 8 (fun v m => Metrics (image_size m) (style m) (render_size m) (fst (horz_baseline m), v) (vert_baseline m));
    int_field 9 (fun v m => Metrics (image_size m) (style m) (render_size m) (horz_baseline m) (v, snd (vert_baseline m)));
    int_field 10 (fun v m => Metrics (image_size m) (style m) (render_size m) (horz_baseline m) (fst (vert_baseline m), v)) ].

(* the variables of a glyph line: the glyph and the code points *)
Definition gvars : Type := glyph * list Z.

(* fields of a glyph: loader_fallback.cpp:262-273 *)
Definition upd_pos (f : pos -> pos) (st : gvars) : gvars :=
  let (g, cps) := st in
  (Glyph (Box (f (bpos (g_box g))) (bsize (g_box g))) (horz_bearing g) (vert_bearing g) (horz_advance g) (vert_advance g), cps).
Definition upd_size (f : size -> size) (st : gvars) : gvars :=
  let (g, cps) := st in
  (Glyph (Box (bpos (g_box g)) (f (bsize (g_box g)))) (horz_bearing g) (vert_bearing g) (horz_advance g) (vert_advance g), cps).
Definition upd_horz (f : Z * Z -> Z * Z) (st : gvars) : gvars :=
  let (g, cps) := st in (Glyph (g_box g) (f (horz_bearing g)) (vert_bearing g) (horz_advance g) (vert_advance g), cps).
Definition upd_vert (f : Z * Z -> Z * Z) (st : gvars) : gvars :=
  let (g, cps) := st in (Glyph (g_box g) (horz_bearing g) (f (vert_bearing g)) (horz_advance g) (vert_advance g), cps).
Definition glyph_fields : list (field gvars nat) :=
  [ int_field 0 (fun v => upd_pos (fun p => Pos v (py p)));
    int_field 1 (fun v => upd_pos (fun p => Pos (px p) v));
    int_field 2 (fun v => upd_size (fun s => Size v (height s)));
    int_field 3 (fun v => upd_size (fun s => Size (width s) v));
    int_field 4 (fun v => upd_horz (fun b => (v, snd b)));
    int_field 5 (fun v => upd_horz (fun b => (fst b, v)));
    int_field 6 (fun v => upd_vert (fun b => (v, snd b)));
    int_field 7 (fun v => upd_vert (fun b => (fst b, v)));
    int_field 8 (fun v (st : gvars) => let (g, cps) := st in (Glyph (g_box g) (horz_bearing g) (vert_bearing g) v (vert_advance g), cps));
    int_field 9 (fun v (st : gvars) => let (g, cps) := st in (Glyph (g_box g) (horz_bearing g) (vert_bearing g) (horz_advance g) v, cps)) ].

(* the field sequence for code points: loader_fallback.cpp:274 *)
Definition code_points_seq : field_seq gvars nat :=
  FieldSeq 10%nat (fun word st => let? cp := parse_code_point word in Some (fst st, snd st ++ [cp])).

(* the values of an uninitialized Glyph do not matter *)
Definition no_glyph : glyph := Glyph (Box (Pos 0 0) (Size 0 0)) (0, 0) (0, 0) 0 0.

(* std::map::emplace on the glyph map.  None if there was an entry already.  The order of the entries is not that of std::map. *)
Fixpoint lookup (map : list (Z * nat)) (ch : Z) : option nat :=
  match map with
  | [] => None
  | (c, i) :: map => if c =? ch then Some i else lookup map ch
  end.
Definition emplace (map : list (Z * nat)) (ch : Z) (i : nat) : option (list (Z * nat)) :=
  match lookup map ch with None => Some (map ++ [(ch, i)]) | Some _ => None end.

(* the loop over the code points: loader_fallback.cpp:303-311.  The first result is true if an error is reported. *)
Fixpoint add_code_points (map : list (Z * nat)) (i : nat) (cps : list Z) : bool * list (Z * nat) :=
  match cps with
  | [] => (false, map)
  | cp :: cps =>
    match emplace map (to_char cp) i with
    | Some map => add_code_points map i cps
    | None => (true, map)
    end
  end.

(* the variables of load_spec() *)
Record state := State {
  family_name : list Z;
  ranges : list (Z * Z);
  mets : metrics;
  glyph_map : list (Z * nat);
  glyphs : list glyph;
  have_family_name : bool;
  have_code_point_ranges : bool;
  have_font_metrics : bool;
  have_fallback_glyph : bool;
  have_error : bool
}.

(* label glyph_spec: loader_fallback.cpp:257-328 *)
Definition glyph_spec (line : list Z) (st : state) : option state :=
  let is_fallback_glyph := negb (have_fallback_glyph st) in
  let '(min, max) := if negb is_fallback_glyph then (1, 2 ^ 64 - 1) else (0, 0) in
  let st_2 (map : list (Z * nat)) (gs : list glyph) (error : bool) :=
    State (family_name st) (ranges st) (mets st) map gs (have_family_name st) (have_code_point_ranges st) (have_font_metrics st)
      true (have_error st || error) in
  let? r := parse_line_seq space line glyph_fields code_points_seq min max (no_glyph, []) in
  match r with
  | Parsed (g, cps) =>
    let? inside := contained_in (g_box g) (Box (Pos 0 0) (image_size (mets st))) in
    if negb inside then Some (st_2 (glyph_map st) (glyphs st) true)
    else if (horz_advance g <? 0) || (vert_advance g <? 0) then Some (st_2 (glyph_map st) (glyphs st) true)
    else
      let glyph_index := length (glyphs st) in
      let (error, map) := add_code_points (glyph_map st) glyph_index cps in
      Some (st_2 map (glyphs st ++ [g]) error)
  | _ => Some (st_2 (glyph_map st) (glyphs st) true)
  end.

(* label font_metrics_spec: loader_fallback.cpp:219-256 *)
Definition font_metrics_spec (line : list Z) (st : state) : state :=
  let st_2 (m : metrics) (error : bool) :=
    State (family_name st) (ranges st) m (glyph_map st) (glyphs st) (have_family_name st) (have_code_point_ranges st) true
      (have_fallback_glyph st) (have_error st || error) in
  match parse_line space line metrics_fields (mets st) with
  | Parsed m => st_2 m false
  | _ => st_2 (left_over line (mets st)) true
  end.

(* label code_point_ranges: loader_fallback.cpp:181-218.  The ranges are left as they were if the line is not accepted; they are not used
   any more then. *)
Definition code_point_ranges (line : list Z) (st : state) : option state :=
  let st_2 (rs : list (Z * Z)) (error : bool) :=
    State (family_name st) rs (mets st) (glyph_map st) (glyphs st) (have_family_name st) true (have_font_metrics st)
      (have_fallback_glyph st) (have_error st || error) in
  let? r := parse_line_seq space line [] ranges_seq 1 (2 ^ 64 - 1) (ranges st) in
  match r with
  | Parsed rs => Some (st_2 rs (negb (check_ranges None rs)))
  | _ => Some (st_2 (ranges st) true)
  end.

(* the body of the loop over the lines: loader_fallback.cpp:167-330 *)
Definition on_line (line : list Z) (st : state) : option state :=
  let line := before_hash line in
  let line_2 := trim line in
  match line_2 with
  | [] => Some st
  | _ =>
    if have_font_metrics st then glyph_spec line st
    else if have_code_point_ranges st then Some (font_metrics_spec line st)
    else if have_family_name st then code_point_ranges line st
    else
      Some (State line_2 (ranges st) (mets st) (glyph_map st) (glyphs st) true (have_code_point_ranges st) (have_font_metrics st)
        (have_fallback_glyph st) (have_error st))
  end.

Fixpoint on_lines (lines : list (list Z)) (st : state) : option state :=
  match lines with
  | [] => Some st
  | line :: lines => let? st := on_line line st in on_lines lines st
  end.

(* Font::spec as loaded *)
Record font_spec := FontSpec {
  fs_family_name : list Z;
  fs_ranges : list (Z * Z);
  fs_metrics : metrics;
  fs_glyphs : list glyph;
  fs_glyph_map : list (Z * nat)
}.

(* load_spec: loader_fallback.cpp:136-351; init is the initial value of the metrics (value initialized).  Some None if false is returned. *)
Definition load_spec (init : metrics) (lines : list (list Z)) : option (option font_spec) :=
  let? st := on_lines lines (State [] [] init [] [] false false false false false) in
  if have_error st then Some None
  else if negb (have_family_name st) then Some None
  else if negb (have_font_metrics st) then Some None
  else if (length (glyphs st) <? 1)%nat then Some None
  else Some (Some (FontSpec (family_name st) (ranges st) (mets st) (glyphs st) (glyph_map st))).

(* ---- FaceImpl ---- *)

(* find_glyph: loader_fallback.cpp:485-491 *)
Definition find_glyph (fs : font_spec) (ch : Z) : nat :=
  match lookup (fs_glyph_map fs) ch with Some i => i | None => 0%nat end.

(* load_glyph: loader_fallback.cpp:498-506, the glyph that m_glyph points to afterwards; None if an exception is thrown *)
Definition load_glyph (fs : font_spec) (glyph_index : nat) : option glyph :=
  if (glyph_index <? length (fs_glyphs fs))%nat then nth_error (fs_glyphs fs) glyph_index else None.

(* core::int_add and core::int_sub for int: an exception is thrown on overflow; integer.hpp *)
Inductive exec (A : Type) := Done (a : A) | Throws | Overflow.
Arguments Done {A}.
Arguments Throws {A}.
Arguments Overflow {A}.

Definition obox (m : option (bool * box)) : exec (bool * box) := match m with Some r => Done r | None => Overflow end.

(* do_render_glyph_mask: loader_fallback.cpp:537-555: the block of the image that is read, and where in the buffer of the specified size it
   is written; Done None if nothing is read.  left and bottom are the values of get_glyph_translation_x/y(). *)
Definition do_render_glyph_mask (g : glyph) (left bottom : Z) (p : pos) (sz : size) : exec (option (box * box)) :=
  match iadd bottom (height (bsize (g_box g))) with
  | None => Overflow
  | Some top =>
    match iadd (px p) left, isub (py p) top with
    | Some x, Some y =>
      let target_box := Box (Pos x y) (bsize (g_box g)) in
      match obox (clip (Box (Pos 0 0) sz) target_box) with
      | Done (true, target_box_2) =>
        match isub (px (bpos target_box_2)) x, isub (py (bpos target_box_2)) y with
        | Some dx, Some dy =>
          match iadd (px (bpos (g_box g))) dx, iadd (py (bpos (g_box g))) dy with
          | Some sx, Some sy => Done (Some (Box (Pos sx sy) (bsize target_box_2), target_box_2))
          | _, _ => Overflow
          end
        | _, _ => Overflow
        end
      | Done (false, _) => Done None
      | Throws => Throws
      | Overflow => Overflow
      end
    | _, _ => Throws
    end
  end.
End LoadSpec.
Arguments metrics : clear implicits.
Arguments state : clear implicits.
Arguments font_spec : clear implicits.
Arguments Done {A}.
Arguments Throws {A}.
Arguments Overflow {A}.
