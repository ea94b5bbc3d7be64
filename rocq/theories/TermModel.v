(* Model of changes of text attributes of terminals (core/terminal.hpp, core/terminal.cpp) *)
From Coq Require Import Arith Bool String Ascii List.
Import ListNotations.
Local Open Scope string_scope.

(* Weight, Color: core/terminal.hpp:47, 55 *)
Inductive weight := w_normal | w_bold | w_faint.
Inductive color := black | red | green | yellow | blue | magenta | cyan | white.
Definition weight_eqb (a b : weight) : bool :=
  match a, b with w_normal, w_normal | w_bold, w_bold | w_faint, w_faint => true | _, _ => false end.
Definition color_index (c : color) : nat :=
  match c with black => 0 | red => 1 | green => 2 | yellow => 3 | blue => 4 | magenta => 5 | cyan => 6 | white => 7 end.
Definition color_eqb (a b : color) : bool := Nat.eqb (color_index a) (color_index b).

(* TextAttributes: core/terminal.hpp:106-187 *)
Record attrs := Attrs {
  a_weight : weight; a_underline : bool; a_blink : bool; a_reverse : bool;
  a_has_color : bool; a_color : color;
  a_has_background_color : bool; a_background_color : color }.

(* TextAttributes::TextAttributes: core/terminal.hpp:440-443 *)
Definition default_attrs : attrs := Attrs w_normal false false false false black false black.

(* The functions that set attributes: core/terminal.hpp:320-369 *)
Inductive setter := SetWeight (v : weight) | SetUnderline (v : bool) | SetBlink (v : bool) | SetReverse (v : bool)
| SetColor (v : color) | UnsetColor | SetBackgroundColor (v : color) | UnsetBackgroundColor.
Definition set_attr (s : setter) (a : attrs) : attrs :=
  match a, s with
  | Attrs w u b r h c hb cb, SetWeight v => Attrs v u b r h c hb cb
  | Attrs w u b r h c hb cb, SetUnderline v => Attrs w v b r h c hb cb
  | Attrs w u b r h c hb cb, SetBlink v => Attrs w u v r h c hb cb
  | Attrs w u b r h c hb cb, SetReverse v => Attrs w u b v h c hb cb
  | Attrs w u b r h c hb cb, SetColor v => Attrs w u b r true v hb cb
  | Attrs w u b r h c hb cb, UnsetColor => Attrs w u b r false black hb cb
  | Attrs w u b r h c hb cb, SetBackgroundColor v => Attrs w u b r h c true v
  | Attrs w u b r h c hb cb, UnsetBackgroundColor => Attrs w u b r h c false black
  end.

(* operator==: core/terminal.hpp:446-449.  Simplification: the bits of the memory that are not part of any field are zero *)
Definition attrs_eqb (a b : attrs) : bool :=
  weight_eqb (a_weight a) (a_weight b) && Bool.eqb (a_underline a) (a_underline b) && Bool.eqb (a_blink a) (a_blink b) &&
  Bool.eqb (a_reverse a) (a_reverse b) && Bool.eqb (a_has_color a) (a_has_color b) && color_eqb (a_color a) (a_color b) &&
  Bool.eqb (a_has_background_color a) (a_has_background_color b) && color_eqb (a_background_color a) (a_background_color b).

(* add_arg in TextAttributes::change: core/terminal.cpp:46-52.  The state is the text that has been added, and nonfirst_arg *)
Definition add_arg (arg : string) (st : string * bool) : string * bool :=
  let (text, nonfirst_arg) := st in
  ((if nonfirst_arg then text ++ ";" else text) ++ arg, true).

(* the arguments for each attribute: core/terminal.cpp:53-65, 66-73, 74-81, 82-89, 90-122, 123-155 *)
Definition weight_arg (to : attrs) : string := match a_weight to with w_normal => "22" | w_bold => "1" | w_faint => "2" end.
Definition underline_arg (to : attrs) : string := if negb (a_underline to) then "24" else "4".
Definition blink_arg (to : attrs) : string := if negb (a_blink to) then "25" else "5".
Definition reverse_arg (to : attrs) : string := if negb (a_reverse to) then "27" else "7".
Definition color_arg (to : attrs) : string :=
  if a_has_color to then
    match a_color to with
    | black => "30" | red => "31" | green => "32" | yellow => "33" | blue => "34" | magenta => "35" | cyan => "36" | white => "37"
    end
  else "39".
Definition background_color_arg (to : attrs) : string :=
  if a_has_background_color to then
    match a_background_color to with
    | black => "40" | red => "41" | green => "42" | yellow => "43" | blue => "44" | magenta => "45" | cyan => "46" | white => "47"
    end
  else "49".

Definition add_if (cond : bool) (arg : string) (st : string * bool) : string * bool := if cond then add_arg arg st else st.

(* "\033[" *)
Definition intro : string := String "027" "[".

(* TextAttributes::change: core/terminal.cpp:34-233; the text that is placed in the buffer *)
Definition change (from to : attrs) : string :=
  if attrs_eqb to from then "" else
  let nondefault_weight := negb (weight_eqb (a_weight to) w_normal) in
  let nondefault_underline := a_underline to in
  let nondefault_blink := a_blink to in
  let nondefault_reverse := a_reverse to in
  let nondefault_color := a_has_color to in
  let nondefault_background_color := a_has_background_color to in
  let change_weight := negb (weight_eqb (a_weight to) (a_weight from)) in
  let change_underline := negb (Bool.eqb (a_underline to) (a_underline from)) in
  let change_blink := negb (Bool.eqb (a_blink to) (a_blink from)) in
  let change_reverse := negb (Bool.eqb (a_reverse to) (a_reverse from)) in
  let change_color := negb (Bool.eqb (a_has_color to) (a_has_color from)) || negb (color_eqb (a_color to) (a_color from)) in
  let change_background_color := negb (Bool.eqb (a_has_background_color to) (a_has_background_color from)) ||
    negb (color_eqb (a_background_color to) (a_background_color from)) in
  let size (cond : bool) (x y : nat) := if cond then x else y in
  let size_1 := (
    size change_weight (size nondefault_weight 2 3) 0 + size change_underline (size nondefault_underline 2 3) 0 +
    size change_blink (size nondefault_blink 2 3) 0 + size change_reverse (size nondefault_reverse 2 3) 0 +
    size change_color (size nondefault_color 3 3) 0 +
    size change_background_color (size nondefault_background_color 3 3) 0)%nat in
  let size_2 := (
    1 + size nondefault_weight 2 0 + size nondefault_underline 2 0 + size nondefault_blink 2 0 + size nondefault_reverse 2 0 +
    size nondefault_color 3 0 + size nondefault_background_color 3 0)%nat in
  let st :=
    if Nat.leb size_1 size_2 then
      let st := add_if change_weight (weight_arg to) (intro, false) in
      let st := add_if change_underline (underline_arg to) st in
      let st := add_if change_blink (blink_arg to) st in
      let st := add_if change_reverse (reverse_arg to) st in
      let st := add_if change_color (color_arg to) st in
      add_if change_background_color (background_color_arg to) st
    else
      let st := add_arg "" (intro, false) in
      let st := add_if nondefault_weight (weight_arg to) st in
      let st := add_if nondefault_underline (underline_arg to) st in
      let st := add_if nondefault_blink (blink_arg to) st in
      let st := add_if nondefault_reverse (reverse_arg to) st in
      let st := add_if nondefault_color (color_arg to) st in
      add_if nondefault_background_color (background_color_arg to) st in
  fst st ++ "m".

(* TextAttributes::min_change_buffer_size: core/terminal.hpp:420-437 *)
Definition min_change_buffer_size : nat := (3 + 1 + 3 + 3 + 3 + 3 + 3 + 3 - 1)%nat.
