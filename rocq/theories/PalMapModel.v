(* Model of palette maps (src/archon/display/noinst/palette_map.hpp and palette_map.cpp).

   Components of the palette that have been converted to floating point are mathematical
   integers (see KdtreeModel.v); rounding is not modelled.  Memory allocation succeeds.
   None stands for undefined behaviour: division by zero, overflow of a signed integer, or
   access outside of an array. *)
From Coq Require Import ZArith Bool List.
From Verif Require Import KdtreeModel ArrLib.
Import ListNotations.
Open Scope Z_scope.

(* How a function ends when its behaviour is defined *)
Inductive outcome (A : Type) := Done (a : A) | Overflow | Invalid_argument.
Arguments Done {A}.
Arguments Overflow {A}.
Arguments Invalid_argument {A}.

Section PalMap.
  (* Largest values of int, std::size_t, and std::ptrdiff_t *)
  Variables int_max size_max diff_max : Z.

  (* core::try_int_mul, for nonnegative values: integer.hpp:1862-1951 (see IntModel.v) *)
  Definition try_mul (mx l r : Z) : option Z := if l * r <=? mx then Some (l * r) else None.

  (* ---- reading the palette ---- *)

  (* Component type of the native representation *)
  Variable comp : Type.
  (* Value initialized component *)
  Variable zero : comp.

  (* Write components to consecutive places of an array *)
  Fixpoint write_comps (buf : list comp) (i : Z) (cs : list comp) : option (list comp) :=
    match cs with
    | [] => Some buf
    | c :: cs =>
      if 0 <=? i then
        let? buf := set_nth buf (Z.to_nat i) c in
        write_comps buf (i + 1) cs
      else None
    end.

  (* image::Reader::get_block_a() as used here: each pixel of the block of size w times h
     at position (px, py) in the image is written to the tray with the given origin and
     strides.  pixel x y is the sequence of components of one pixel in the native
     representation, in the color space of the reader, and including the alpha channel. *)
  Variable pixel : Z -> Z -> list comp.
  Fixpoint get_row (n : nat) (buf : list comp) (px py origin hs : Z) : option (list comp) :=
    match n with
    | O => Some buf
    | S n =>
      let? buf := write_comps buf origin (pixel px py) in
      get_row n buf (px + 1) py (origin + hs) hs
    end.
  Fixpoint get_rows (h : nat) (w : Z) (buf : list comp) (px py origin hs vs : Z) : option (list comp) :=
    match h with
    | O => Some buf
    | S h =>
      let? buf := get_row (Z.to_nat w) buf px py origin hs in
      get_rows h w buf px (py + 1) (origin + vs) hs vs
    end.
  Definition get_block (buf : list comp) (px py origin hs vs w h : Z) : option (list comp) :=
    get_rows (Z.to_nat h) w buf px py origin hs vs.

  (* read_palette: palette_map.hpp:167-212.  The result is the size and the components;
     the number of components is the length of the latter. *)
  Definition read_palette (image_w image_h num_channels_ext max_size : Z) : option (outcome (Z * list comp)) :=
    (* 174-182 *)
    let width := Z.max image_w 0 in
    let height := Z.max image_h 0 in
    let size := match try_mul int_max 1 width with
                | Some s => match try_mul int_max s height with Some s => s | None => int_max end
                | None => int_max
                end in
    let size := if (0 <=? max_size) && (max_size <? size) then max_size else size in
    (* 185-188 *)
    match try_mul size_max 1 num_channels_ext with
    | None => Some Overflow
    | Some n =>
      match try_mul size_max n size with
      | None => Some Overflow
      | Some num_components =>
        (* 191-207 *)
        let components := repeat zero (Z.to_nat num_components) in
        if width =? 0 then None
        else
          let num_full_rows := Z.quot size width in
          let horz_stride := num_channels_ext in
          let vert_stride := width * horz_stride in
          if vert_stride <=? diff_max then
            let? components := get_block components 0 0 0 horz_stride vert_stride width num_full_rows in
            let remain := size - num_full_rows * width in
            if 0 <? remain then
              let? components := get_block components 0 num_full_rows (num_full_rows * vert_stride)
                                           horz_stride vert_stride remain 1 in
              Some (Done (size, components))
            else Some (Done (size, components))
          else None
      end
    end.

  (* ---- construction ---- *)

  (* Data members: palette_map.hpp:78-86.  The native components are of no importance to
     lookup, and are left out. *)
  Record palette_map := PaletteMap {
    m_num_channels : Z; m_num_channels_ext : Z; m_size : Z;
    m_components : list Z; m_kdtree : list Z }.

  (* Default constructor: palette_map.hpp:52 and 78-86 *)
  Definition default_map : palette_map := PaletteMap 0 1 0 [] [].

  (* image::comp_repr_convert<repr_1, repr_2>() of the components of one color to floating
     point.  The identity when the native representation is floating point. *)
  Variable conv : list comp -> list Z.

  (* convert: palette_map.cpp:105-125.  One color at a time *)
  Fixpoint convert_loop (n : nat) (num_channels_ext : Z) (origin : list comp) : option (list Z) :=
    match n with
    | O => Some []
    | S n =>
      if num_channels_ext <=? Z.of_nat (length origin) then
        let? rest := convert_loop n num_channels_ext (skipn (Z.to_nat num_channels_ext) origin) in
        Some (conv (firstn (Z.to_nat num_channels_ext) origin) ++ rest)
      else None
    end.

  (* The lambda function get_comp: palette_map.cpp:64-67 and 135-138 *)
  Definition get_comp (components : list Z) (num_channels_ext color_index comp_index : Z) : Z :=
    nth (Z.to_nat (color_index * num_channels_ext + comp_index)) components 0.

  (* Whether get_comp() stays inside the array of components for every color and every one
     of the first k components.  This is required although not every one of them need be
     accessed. *)
  Definition accessible (components : list Z) (num_channels_ext size k : Z) : bool :=
    (size =? 0) || ((size - 1) * num_channels_ext + (k - 1) <? Z.of_nat (length components)).

  Variable max_levels : Z.
  Variable nth_element : (Z -> Z -> bool) -> nat -> list Z -> list Z.

  (* setup_kdtree: palette_map.cpp:128-144 *)
  Definition setup_kdtree (components : list Z) (num_channels num_channels_ext size : Z) : option (list Z) :=
    let kdtree := map Z.of_nat (seq 0 (Z.to_nat size)) in
    if accessible components num_channels_ext size num_channels then
      kdtree_sort Z (get_comp components num_channels_ext) num_channels max_levels nth_element kdtree
    else None.

  (* init: palette_map.hpp:215-243 *)
  Definition init (num_channels num_channels_ext size : Z) (components : list comp) : option (outcome palette_map) :=
    match try_mul size_max 1 num_channels_ext with
    | None => Some Overflow
    | Some n =>
      match try_mul size_max n size with
      | None => Some Overflow
      | Some expected_num_components =>
        if negb (Z.of_nat (length components) =? expected_num_components) then Some Invalid_argument
        else
          let? comps := convert_loop (Z.to_nat size) num_channels_ext components in
          let? kdtree := setup_kdtree comps num_channels num_channels_ext size in
          Some (Done (PaletteMap num_channels num_channels_ext size comps kdtree))
      end
    end.

  (* PaletteMap(const image::Image&): palette_map.cpp:41-57 *)
  Definition from_image (image_w image_h num_channels num_channels_ext : Z) : option (outcome palette_map) :=
    let? r := read_palette image_w image_h num_channels_ext (-1) in
    match r with
    | Done (size, components) => init num_channels num_channels_ext size components
    | Overflow => Some Overflow
    | Invalid_argument => Some Invalid_argument
    end.

  (* PaletteMap(color_space, num_channels_ext, trivial_alpha, size, components,
     num_components): palette_map.hpp:129-138 *)
  Definition from_components (num_channels_ext : Z) (trivial_alpha : bool) (size : Z) (components : list comp) :
    option (outcome palette_map) :=
    let num_channels := num_channels_ext - Z.b2z trivial_alpha in
    init num_channels num_channels_ext size components.

  (* reverse_lookup: palette_map.cpp:60-74.  The index if the function returns true *)
  Definition reverse_lookup (m : palette_map) (color : list Z) : option (option Z) :=
    if accessible (m_components m) (m_num_channels_ext m) (m_size m) (m_num_channels m) then
      let? r := kdtree_find Z (get_comp (m_components m) (m_num_channels_ext m)) (m_num_channels m) max_levels
                            color (firstn (Z.to_nat (m_size m)) (m_kdtree m)) None in
      match r with
      | Some (index, _) => Some (Some index)
      | None => Some None
      end
    else None.

  (* move_from: palette_map.cpp:90-102.  The number of channels including alpha is not
     assigned. *)
  Definition move_from (this other : palette_map) : palette_map :=
    {| m_num_channels := m_num_channels other;
       m_num_channels_ext := m_num_channels_ext this;
       m_size := m_size other;
       m_components := m_components other;
       m_kdtree := m_kdtree other |}.

  (* Move constructor: palette_map.hpp:115-118 *)
  Definition move_construct (other : palette_map) : palette_map := move_from default_map other.

  (* Move assignment: palette_map.hpp:121-126 *)
  Definition move_assign (this other : palette_map) : palette_map := move_from this other.
End PalMap.
