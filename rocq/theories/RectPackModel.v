(* Model of RectanglePacker<T>: /repo/src/archon/util/rectangle_packer.hpp.

   comp_type is any builtin integer type t.  None is undefined behaviour (signed
   overflow, access out of bounds) or a failed assertion.  std::size_t values are
   natural numbers; std::size_t(-1) as a node index is None.  Memory allocation does
   not fail. *)
From Coq Require Import ZArith Bool List.
From Verif Require Import CInt ArrLib.
Import ListNotations.
Open Scope Z_scope.

(* struct Rect, Bin, Node: rectangle_packer.hpp:80-96 *)
Record rect := Rect { r_w : Z; r_h : Z; r_x : Z; r_y : Z; r_bin : nat }.
Record bin := Bin { b_root : nat; b_max_x : Z; b_max_y : Z }.
Record node := Node { n_occ : bool; n_x : Z; n_y : Z; n_w : Z; n_h : Z;
                      n_right : option nat; n_down : option nat }.

Section RectPack.
  Variable t : ity.              (* comp_type *)
  Variables (m_spacing m_margin : Z).

  (* the object, without m_order and m_stack, which are set anew before they are used *)
  Record packer := Packer { p_rects : list rect; p_bins : list bin; p_nodes : list node }.

  (* RectanglePacker() and reset(): rectangle_packer.hpp:125-138 *)
  Definition empty : packer := Packer [] [] [].

  (* add_rect(): rectangle_packer.hpp:142-149 *)
  Definition add_rect (p : packer) (width height : Z) : option packer :=
    if (width <? 0) || (height <? 0) then None
    else Some (Packer (p_rects p ++ [Rect width height 0 0 0]) (p_bins p) (p_nodes p)).

  (* arithmetic on (promoted) components, and conversion of the result to comp_type *)
  Definition ar (z : Z) : option Z := option_map snd (norm (promo t) z).
  Definition ct (z : Z) : Z := wrap t z.

  (* the comparison function: rectangle_packer.hpp:293-296 *)
  Definition before (rects : list rect) (i j : nat) : option bool :=
    let? a := nth_error rects i in
    let? b := nth_error rects j in
    Some ((r_h a >? r_h b) || ((r_h a =? r_h b) && (r_w a >? r_w b))).

  (* std::stable_sort: rectangle_packer.hpp:293.  The result of a stable sort is unique,
     so any stable sorting algorithm gives it; this one inserts the elements from the
     last to the first, each in front of the first element that does not come strictly
     before it. *)
  Fixpoint insert_sorted (rects : list rect) (i : nat) (l : list nat) : option (list nat) :=
    match l with
    | [] => Some [i]
    | j :: l' =>
      let? c := before rects j i in
      if c then let? l' := insert_sorted rects i l' in Some (j :: l') else Some (i :: l)
    end.
  Fixpoint stable_sort (rects : list rect) (l : list nat) : option (list nat) :=
    match l with
    | [] => Some []
    | i :: l => let? l := stable_sort rects l in insert_sorted rects i l
    end.

  (* add_node: rectangle_packer.hpp:301-306 *)
  Definition add_node (nodes : list node) (x y w h : Z) : list node :=
    nodes ++ [Node false x y w h None None].

  (* the search for a node that can hold the rectangle: rectangle_packer.hpp:325-330,
     373-387.  Some None: no node of the bin can.  The loop visits each node at most
     once; fuel is the number of visits allowed. *)
  Fixpoint find_node (fuel : nat) (nodes : list node) (w h : Z) (node_index : nat) (stack : list nat)
    : option (option nat) :=
    match fuel with
    | O => None
    | S fuel =>
      let? nd := nth_error nodes node_index in
      let back stack :=
        match stack with
        | i :: stack => find_node fuel nodes w h i stack
        | [] => Some None
        end in
      if negb (n_occ nd) then
        let fits := (w <=? n_w nd) && (h <=? n_h nd) in
        if negb fits then back stack else Some (Some node_index)
      else
        let stack := match n_down nd with Some i => i :: stack | None => stack end in
        match n_right nd with
        | Some i => find_node fuel nodes w h i stack
        | None => back stack
        end
    end.

  (* occupation of a node: rectangle_packer.hpp:331-371.  Yields the nodes, the bin and
     the position. *)
  Definition occupy (nodes : list node) (b : bin) (node_index : nat) (w h : Z)
    : option (list node * bin * Z * Z) :=
    let? nd := nth_error nodes node_index in
    let? xe := ar (n_x nd + w) in
    let max_x := if xe >? b_max_x b then ct xe else b_max_x b in
    let? ye := ar (n_y nd + h) in
    let max_y := if ye >? b_max_y b then ct ye else b_max_y b in
    let? w1 := ar (n_w nd - w) in
    let w_1 := ct w1 in
    let? h2 := ar (n_h nd - h) in
    let h_2 := ct h2 in
    let '(h_1, w_2) := if h_2 >=? w_1 then (h, n_w nd) else (n_h nd, w) in
    let? (rn, nodes_1) :=
      if w_1 >=? m_spacing then
        let? w_1 := ar (w_1 - m_spacing) in
        let? x := ar (n_x nd + w) in
        let? x := ar (x + m_spacing) in
        Some (Some (length nodes), add_node nodes (ct x) (n_y nd) (ct w_1) h_1)
      else Some (None, nodes) in
    let? (dn, nodes_2) :=
      if h_2 >=? m_spacing then
        let? h_2 := ar (h_2 - m_spacing) in
        let? y := ar (n_y nd + h) in
        let? y := ar (y + m_spacing) in
        Some (Some (length nodes_1), add_node nodes_1 (n_x nd) (ct y) w_2 (ct h_2))
      else Some (None, nodes_1) in
    let? nodes_3 := set_nth nodes_2 node_index
      (Node true (n_x nd) (n_y nd) (n_w nd) (n_h nd) rn dn) in
    Some (nodes_3, Bin (b_root b) max_x max_y, n_x nd, n_y nd).

  (* insert_rect: rectangle_packer.hpp:307-389.  Each pass of the outer loop increments
     bin_index or leaves the loop; fuel is the number of passes allowed.  None in place
     of the rectangle is the result `false`. *)
  Fixpoint insert_rect (fuel : nat) (root_x root_y root_w root_h : Z) (max_bins : nat) (rc : rect)
    (bins : list bin) (nodes : list node) (bin_index : nat)
    : option (option rect * list bin * list node) :=
    match fuel with
    | O => None
    | S fuel =>
      let w := r_w rc in
      let h := r_h rc in
      let is_new := Nat.eqb bin_index (length bins) in
      if is_new && (Nat.eqb bin_index max_bins || (w >? root_w) || (h >? root_h)) then
        Some (None, bins, nodes)
      else
        let '(bins, nodes) :=
          if is_new then
            (bins ++ [Bin (length nodes) root_x root_y],
             add_node nodes root_x root_y root_w root_h)
          else (bins, nodes) in
        let? b := nth_error bins bin_index in
        let? r := find_node (length nodes) nodes w h (b_root b) [] in
        match r with
        | Some node_index =>
          let? (nodes, b, x, y) := occupy nodes b node_index w h in
          let? bins := set_nth bins bin_index b in
          Some (Some (Rect w h x y bin_index), bins, nodes)
        | None =>
          insert_rect fuel root_x root_y root_w root_h max_bins rc bins nodes (S bin_index)
        end
    end.

  (* rectangle_packer.hpp:390-396 *)
  Fixpoint place_loop (order : list nat) (root_x root_y root_w root_h : Z) (max_bins : nat) (p : packer)
    : option (bool * packer) :=
    match order with
    | [] => Some (true, p)
    | i :: order =>
      let? rc := nth_error (p_rects p) i in
      let? (r, bins, nodes) := insert_rect (S (length (p_bins p))) root_x root_y root_w root_h max_bins rc
        (p_bins p) (p_nodes p) 0 in
      match r with
      | Some rc =>
        let? rects := set_nth (p_rects p) i rc in
        place_loop order root_x root_y root_w root_h max_bins (Packer rects bins nodes)
      | None => Some (false, Packer (p_rects p) bins nodes)
      end
    end.

  (* pack() and do_pack(): rectangle_packer.hpp:219-229, 278-397 *)
  Definition pack (p : packer) (bin_width bin_height : Z) (max_bins : nat) : option (bool * packer) :=
    let too_small (size : Z) : option bool :=
      if m_margin >? size then Some true
      else let? d := ar (size - m_margin) in Some (m_margin >? d) in
    let? a := too_small bin_width in
    let? a := if a then Some true else too_small bin_height in
    if a then Some (false, p)
    else
      let root_x := m_margin in
      let root_y := m_margin in
      let? m2 := ar (2 * m_margin) in
      let? root_w := ar (bin_width - m2) in
      let root_w := ct root_w in
      let? root_h := ar (bin_height - m2) in
      let root_h := ct root_h in
      let? order := stable_sort (p_rects p) (seq 0 (length (p_rects p))) in
      match p_nodes p, p_bins p with
      | [], [] => place_loop order root_x root_y root_w root_h max_bins p
      | _, _ => None (* failed assertion: lines 299-300 *)
      end.

  (* get_utilized_width/height(): rectangle_packer.hpp:240-254 *)
  Definition utilized_width (p : packer) (bin_index : nat) : option Z :=
    let? b := nth_error (p_bins p) bin_index in
    let? s := ar (b_max_x b + m_margin) in Some (ct s).
  Definition utilized_height (p : packer) (bin_index : nat) : option Z :=
    let? b := nth_error (p_bins p) bin_index in
    let? s := ar (b_max_y b + m_margin) in Some (ct s).

  (* get_rect_pos(): rectangle_packer.hpp:266-274 *)
  Definition rect_pos (p : packer) (rect_index : nat) : option (nat * Z * Z) :=
    let? r := nth_error (p_rects p) rect_index in Some (r_bin r, r_x r, r_y r).

  (* suggest_bin_width(): rectangle_packer.hpp:153-215.  std::uintmax_t has UW bits.
     try_int_add, try_int_mul, int_sqrt and the arithmetic of MulPrecInt (modulo 2 to the
     number of bits) are taken as exact; see IntProps and MulPrecProps. *)
  Variable UW : Z.

  (* lines 155-159 *)
  Fixpoint max_rect_width (rects : list rect) (min_width : Z) : Z :=
    match rects with
    | [] => min_width
    | r :: rects => max_rect_width rects (if r_w r >? min_width then r_w r else min_width)
    end.

  (* lines 164-175.  None: goto fallback.  (The spacing is added to the width twice.) *)
  Fixpoint total_area (rects : list rect) (area : Z) : option Z :=
    match rects with
    | [] => Some area
    | r :: rects =>
      let w := r_w r in
      let h := r_h r in
      if w + m_spacing <? 2 ^ UW then
        let w := w + m_spacing in
        if w + m_spacing <? 2 ^ UW then
          let w := w + m_spacing in
          if (w * h <? 2 ^ UW) && (area + w * h <? 2 ^ UW) then total_area rects (area + w * h) else None
        else None
      else None
    end.

  (* lines 202-211, with arithmetic modulo m.  None: return max_comp. *)
  Fixpoint total_area_2 (m : Z) (rects : list rect) (area : Z) : option Z :=
    match rects with
    | [] => Some area
    | r :: rects =>
      let a := (((r_w r + m_spacing) mod m) * ((r_h r + m_spacing) mod m)) mod m in
      if a <=? (m - 1 - area) mod m then total_area_2 m rects ((area + a) mod m) else None
    end.

  (* lines 179-190 *)
  Fixpoint add_margins (n : nat) (width : Z) : option Z :=
    match n with
    | O => Some width
    | S n =>
      let? d := ar (imax t - width) in
      if m_margin <=? d then let? w := ar (width + m_margin) in add_margins n (ct w) else Some (imax t)
    end.

  Definition suggest_bin_width (rects : list rect) : option Z :=
    let min_width := max_rect_width rects 0 in
    match total_area rects 0 with
    | Some area => add_margins 2 (Z.max (ct ((Z.sqrt area - m_spacing) mod 2 ^ UW)) min_width)
    | None =>
      let bits := 2 * ((if isigned t then iwidth t - 1 else iwidth t) + 1) in
      let num_parts := bits / UW in
      if num_parts >? 1 then
        let m := 2 ^ (num_parts * UW) in
        match total_area_2 m rects 0 with
        | Some area => add_margins 2 (Z.max (ct ((Z.sqrt area - m_spacing) mod m)) min_width)
        | None => Some (imax t)
        end
      else None (* failed assertion: line 198 *)
    end.
End RectPack.
