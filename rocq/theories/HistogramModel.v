(* Model of the histogram (src/archon/core/histogram.hpp).

   Simplifications: floating point values are rational numbers, and arithmetic is exact (there is no rounding, no NaN, and infinities occur only where
   the code names them).  value_type has infinities.  The type of characters, the characters that out.widen() produces, and the texts that the formatter
   produces for values and for counts (which depend on the locale) are arbitrary.  Sizes of texts do not exceed the range of std::size_t.  The width of
   the output stream is zero.  The overloads for files (lines 164-191), which only select a width, are not modelled. *)
From Coq Require Import ZArith QArith Qround String Ascii List Bool.
From Verif Require Import ArrLib.
Import ListNotations.
Local Open Scope Z_scope.

(* Data members: 114-120.  m_num_bins is the length of h_bins. *)
Record hist := Hist { h_base : Q; h_scale : Q; h_bins : list Z; h_under : Z; h_over : Z }.

(* Constructor: 133-140.  None is for a scale that is zero or not finite, which is not modelled. *)
Definition hist_make (from to : Q) (num_bins : nat) : option hist :=
  if (num_bins =? 0)%nat || Qeq_bool to from then None
  else Some (Hist from (inject_Z (Z.of_nat num_bins) / (to - from)) (repeat 0 num_bins) 0 0).

(* Increment of an object of type long long: lines 152, 155, 159 *)
Definition increment (n : Z) : option Z := if n <? 2 ^ 63 - 1 then Some (n + 1) else None.

(* core::max_float_for_int<value_type, std::size_t>(): float.hpp:205-206, for 64-bit std::size_t and for a type with a precision of 24, 53, or 64 bits *)
Definition max_float_for_size (digits : Z) : Z := 2 ^ 64 - 2 ^ (64 - digits).

Fixpoint increment_at (l : list Z) (i : nat) : option (list Z) :=
  match l, i with
  | [], _ => None
  | n :: l, O => let? n' := increment n in Some (n' :: l)
  | n :: l, S i => let? l' := increment_at l i in Some (n :: l')
  end.

(* add(): 143-161.  None is undefined behavior.  The conversion to std::size_t happens before the check of the range. *)
Definition hist_add (digits : Z) (h : hist) (val : Q) : option hist :=
  let val_2 := (h_scale h * (val - h_base h))%Q in
  if Qle_bool 0 val_2 then
    let val_3 := Qfloor val_2 in
    let max := max_float_for_size digits in
    let? val_4 := if Qfloor val_2 <? 2 ^ 64 then Some (Qfloor val_2) else None in
    if (val_3 <=? max) && (val_4 <? Z.of_nat (length (h_bins h))) then
      let? bins := increment_at (h_bins h) (Z.to_nat val_4) in
      Some (Hist (h_base h) (h_scale h) bins (h_under h) (h_over h))
    else
      let? over := increment (h_over h) in
      Some (Hist (h_base h) (h_scale h) (h_bins h) (h_under h) over)
  else
    let? under := increment (h_under h) in
    Some (Hist (h_base h) (h_scale h) (h_bins h) under (h_over h)).

Fixpoint hist_run (digits : Z) (h : hist) (vals : list Q) : option hist :=
  match vals with
  | [] => Some h
  | v :: vals => let? h' := hist_add digits h v in hist_run digits h' vals
  end.

(* Values that are printed: 203-210 *)
Inductive value := Below | Finite (q : Q) | Above.

(* Outcome of print(): the characters, an exception (from int_cast()), or undefined behavior *)
Inductive printed (A : Type) := Printed (a : A) | Thrown | Undefined.
Arguments Printed {A} _.
Arguments Thrown {A}.
Arguments Undefined {A}.
Definition pbind {A B} (m : printed A) (k : A -> printed B) : printed B :=
  match m with Printed a => k a | Thrown => Thrown | Undefined => Undefined end.

Section Print.
  Variable C : Type.
  Variable widen : ascii -> C.
  (* What the formatter produces for a value (with or without std::showpos), and for a count *)
  Variable fmt : bool -> value -> list C.
  Variable fmt_count : Z -> list C.

  Definition text (s : string) : list C := map widen (list_ascii_of_string s).
  Definition fill : C := widen " "%char.

  (* Insertion of a string after std::left << std::setw(w), and after std::right << std::setw(w) *)
  Definition put_left (w : Z) (s : list C) : list C := s ++ repeat fill (Z.to_nat w - length s).
  Definition put_right (w : Z) (s : list C) : list C := repeat fill (Z.to_nat w - length s) ++ s.

  (* struct Text, struct BinTexts: 221-230 *)
  Record range := Range { r_begin : nat; r_end : nat }.
  Record bin_texts := BinTexts { bt_from : range; bt_to : range; bt_count : range }.

  (* formatter_1.view(), from_column_width, to_column_width, count_column_width: 232-239 *)
  Record columns := Columns { c_view : list C; c_from : Z; c_to : Z; c_count : Z }.

  (* format_value(), format_count(): 243-259 *)
  Definition append_text (view : list C) (s : list C) : range * list C :=
    (Range (length view) (length (view ++ s)), view ++ s).

  (* 261-264, 265-267, 269-271 *)
  Definition widen_column (r : range) (w : Z) : printed Z :=
    let size := Z.of_nat (r_end r - r_begin r) in
    if 2 ^ 31 - 1 <? size then Thrown else Printed (if w <? size then size else w).

  (* make_texts(): 260-273 *)
  Definition make_texts (st : columns) (from to : range) (n : Z) : printed (bin_texts * columns) :=
    pbind (widen_column from (c_from st)) (fun from_w =>
    pbind (widen_column to (c_to st)) (fun to_w =>
    let '(count, view) := append_text (c_view st) (fmt_count n) in
    pbind (widen_column count (c_count st)) (fun count_w =>
    Printed (BinTexts from to count, Columns view from_w to_w count_w)))).

  Definition with_view (st : columns) (view : list C) : columns := Columns view (c_from st) (c_to st) (c_count st).

  (* One step of 281-284, 287-290, and 293-295 *)
  Definition next_texts (showpos : bool) (st : columns) (from : range) (to : value) (n : Z) : printed (bin_texts * range * columns) :=
    let '(to_text, view) := append_text (c_view st) (fmt showpos to) in
    pbind (make_texts (with_view st view) from to_text n) (fun '(bt, st') => Printed (bt, to_text, st')).

  (* 286-291.  i is the index of the first of the counts *)
  Fixpoint bins_texts (showpos : bool) (base bin_width : Q) (i : nat) (counts : list Z) (from : range) (st : columns) :
      printed (list bin_texts * range * columns) :=
    match counts with
    | [] => Printed ([], from, st)
    | n :: counts =>
      let to := (base + inject_Z (Z.of_nat (i + 1)) * bin_width)%Q in
      pbind (next_texts showpos st from (Finite to) n) (fun '(bt, from', st') =>
      pbind (bins_texts showpos base bin_width (S i) counts from' st') (fun '(bts, from'', st'') =>
      Printed (bt :: bts, from'', st'')))
    end.

  (* get_string(): 301-305 *)
  Definition get_string (view : list C) (r : range) : list C := firstn (r_end r - r_begin r) (skipn (r_begin r) view).

  (* get_bar(): 309-317.  The second result is the new bar_buffer *)
  Definition get_bar (buffer : list C) (size : Z) : printed (list C * list C) :=
    if size <? 0 then Thrown else
    let size_2 := Z.to_nat size in
    let buffer' := if (length buffer <? size_2)%nat then buffer ++ repeat (widen "#"%char) (size_2 - length buffer) else buffer in
    Printed (firstn size_2 buffer', buffer').

  (* deduct(): 320-327 *)
  Definition deduct (max_bar_size n : Z) : Z := if n <=? max_bar_size then max_bar_size - n else 0.

  (* std::round(): halfway cases away from zero *)
  Definition round (x : Q) : Z := if Qle_bool 0 x then Qfloor (x + (1 # 2)) else - Qfloor (- x + (1 # 2)).

  (* int(std::round(n * scale)): 334, 349.  The scale is not finite when max_count is zero, and n * scale is then NaN or infinite. *)
  Definition bar_size (max_bar_size max_count n : Z) : printed Z :=
    if max_count =? 0 then Undefined else
    let r := round (inject_Z n * (inject_Z max_bar_size / inject_Z max_count)) in
    if (- 2 ^ 31 <=? r) && (r <? 2 ^ 31) then Printed r else Undefined.

  (* format_bin(): 340-353 *)
  Definition format_bin (st : columns) (max_bar_size max_count : Z) (buffer : list C) (texts : bin_texts) (n : Z) : printed (list C * list C) :=
    pbind (bar_size max_bar_size max_count n) (fun size =>
    pbind (get_bar buffer size) (fun '(bar, buffer') =>
    Printed (put_left (c_from st) (get_string (c_view st) (bt_from texts)) ++ text " -> " ++
             put_left (c_to st) (get_string (c_view st) (bt_to texts)) ++ text " : " ++
             put_right (c_count st) (get_string (c_view st) (bt_count texts)) ++ text " |" ++
             put_left max_bar_size bar ++ text "|" ++ [widen "010"%char], buffer'))).

  Fixpoint format_bins (st : columns) (max_bar_size max_count : Z) (buffer : list C) (bins : list (bin_texts * Z)) : printed (list C) :=
    match bins with
    | [] => Printed []
    | (texts, n) :: bins =>
      pbind (format_bin st max_bar_size max_count buffer texts n) (fun '(line, buffer') =>
      pbind (format_bins st max_bar_size max_count buffer' bins) (fun rest => Printed (line ++ rest)))
    end.

  (* 212-219 *)
  Definition max_count (h : hist) : Z := fold_left (fun m n => if n <=? m then m else n) (h_bins h) (Z.max (h_under h) (h_over h)).

  (* print(): 194-361.  Since the lowest and highest values are infinite, include_under and include_over are both include_under_over. *)
  Definition hist_print (h : hist) (width : Z) (include : bool) : printed (list C) :=
    let bin_width := (1 / h_scale h)%Q in
    let from := if include then Below else Finite (h_base h) in
    let showpos := match from with Below => true | Finite q => negb (Qle_bool 0 q) | Above => false end in
    let '(from_text, view) := append_text [] (fmt showpos from) in
    let st := Columns view 0 0 0 in
    pbind (if include then
             pbind (next_texts showpos st from_text (Finite (h_base h)) (h_under h)) (fun '(bt, from_text, st) => Printed ([(bt, h_under h)], from_text, st))
           else Printed ([], from_text, st)) (fun '(under, from_text, st) =>
    pbind (bins_texts showpos (h_base h) bin_width 0 (h_bins h) from_text st) (fun '(bts, from_text, st) =>
    pbind (if include then
             pbind (next_texts showpos st from_text Above (h_over h)) (fun '(bt, _, st) => Printed ([(bt, h_over h)], st))
           else Printed ([], st)) (fun '(over, st) =>
    let max_bar_size := fold_left deduct [c_from st; 4; c_to st; 3; c_count st; 3] width in
    format_bins st max_bar_size (max_count h) [] (under ++ combine bts (h_bins h) ++ over)))).
End Print.
