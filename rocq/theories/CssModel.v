(* Model of util::CssColor (src/archon/util/css_color.{hpp,cpp}), of the named colors
   (src/archon/util/colors.hpp) and of util::as_css_color
   (src/archon/util/as_css_color.hpp).  Text is a list of character codes.  None is an
   assertion failure, an access outside of an array, or a violated precondition of a
   standard algorithm; an inner None is the value false (failure to parse, or no such named
   color). *)
From Coq Require Import ZArith Ascii String.
From Coq Require Import List Bool.
From Verif Require Import CInt IntTextModel StableSortModel ArrLib.
Import ListNotations.
Open Scope Z_scope.

(* a string literal *)
Definition str (s : string) : list Z := map (fun c => Z.of_nat (nat_of_ascii c)) (list_ascii_of_string s).

(* CssColor::Hex: css_color.hpp:67-69; also util::Color, whose components are of the same
   type: color.hpp:91, 110-116 *)
Record hex := Hex { h_r : Z; h_g : Z; h_b : Z; h_a : Z }.

(* int_comp_type and util::Color::comp_type are std::uint_least8_t, here of width 8:
   css_color.hpp:58, color.hpp:41 *)
Definition comp (v : Z) : Z := v mod 2 ^ 8.

(* rgba_type is std::uint_least32_t, here of width 32: css_color.cpp:58 *)
Definition rgba_type : ity := ITy 32 false.

(* Color::from_trgb(): color.hpp:128-134 *)
Definition from_trgb (trgb : Z) : hex :=
  Hex (comp (Z.land (Z.shiftr trgb 16) 0xFF))
      (comp (Z.land (Z.shiftr trgb 8) 0xFF))
      (comp (Z.land (Z.shiftr trgb 0) 0xFF))
      (comp (255 - Z.land (Z.shiftr trgb 24) 0xFF)).

(* g_named_colors: css_color.cpp:125-273, with the values of the constants of
   colors.hpp:40-186; the member css21, which is not used, is left out *)
Definition named_colors : list (list Z * hex) :=
  [ (str "transparent", from_trgb 0xFF000000);
    (str "aliceblue", from_trgb 0x00F0F8FF);
    (str "antiquewhite", from_trgb 0x00FAEBD7);
    (str "aqua", from_trgb 0x0000FFFF);
    (str "aquamarine", from_trgb 0x007FFFD4);
    (str "azure", from_trgb 0x00F0FFFF);
    (str "beige", from_trgb 0x00F5F5DC);
    (str "bisque", from_trgb 0x00FFE4C4);
    (str "black", from_trgb 0x00000000);
    (str "blanchedalmond", from_trgb 0x00FFEBCD);
    (str "blue", from_trgb 0x000000FF);
    (str "blueviolet", from_trgb 0x008A2BE2);
    (str "brown", from_trgb 0x00A52A2A);
    (str "burlywood", from_trgb 0x00DEB887);
    (str "cadetblue", from_trgb 0x005F9EA0);
    (str "chartreuse", from_trgb 0x007FFF00);
    (str "chocolate", from_trgb 0x00D2691E);
    (str "coral", from_trgb 0x00FF7F50);
    (str "cornflowerblue", from_trgb 0x006495ED);
    (str "cornsilk", from_trgb 0x00FFF8DC);
    (str "crimson", from_trgb 0x00DC143C);
    (str "cyan", from_trgb 0x0000FFFF);
    (str "darkblue", from_trgb 0x0000008B);
    (str "darkcyan", from_trgb 0x00008B8B);
    (str "darkgoldenrod", from_trgb 0x00B8860B);
    (str "darkgray", from_trgb 0x00A9A9A9);
    (str "darkgreen", from_trgb 0x00006400);
    (str "darkgrey", from_trgb 0x00A9A9A9);
    (str "darkkhaki", from_trgb 0x00BDB76B);
    (str "darkmagenta", from_trgb 0x008B008B);
    (str "darkolivegreen", from_trgb 0x00556B2F);
    (str "darkorange", from_trgb 0x00FF8C00);
    (str "darkorchid", from_trgb 0x009932CC);
    (str "darkred", from_trgb 0x008B0000);
    (str "darksalmon", from_trgb 0x00E9967A);
    (str "darkseagreen", from_trgb 0x008FBC8F);
    (str "darkslateblue", from_trgb 0x00483D8B);
    (str "darkslategray", from_trgb 0x002F4F4F);
    (str "darkslategrey", from_trgb 0x002F4F4F);
    (str "darkturquoise", from_trgb 0x0000CED1);
    (str "darkviolet", from_trgb 0x009400D3);
    (str "deeppink", from_trgb 0x00FF1493);
    (str "deepskyblue", from_trgb 0x0000BFFF);
    (str "dimgray", from_trgb 0x00696969);
    (str "dimgrey", from_trgb 0x00696969);
    (str "dodgerblue", from_trgb 0x001E90FF);
    (str "firebrick", from_trgb 0x00B22222);
    (str "floralwhite", from_trgb 0x00FFFAF0);
    (str "forestgreen", from_trgb 0x00228B22);
    (str "fuchsia", from_trgb 0x00FF00FF);
    (str "gainsboro", from_trgb 0x00DCDCDC);
    (str "ghostwhite", from_trgb 0x00F8F8FF);
    (str "gold", from_trgb 0x00FFD700);
    (str "goldenrod", from_trgb 0x00DAA520);
    (str "gray", from_trgb 0x00808080);
    (str "green", from_trgb 0x00008000);
    (str "greenyellow", from_trgb 0x00ADFF2F);
    (str "grey", from_trgb 0x00808080);
    (str "honeydew", from_trgb 0x00F0FFF0);
    (str "hotpink", from_trgb 0x00FF69B4);
    (str "indianred", from_trgb 0x00CD5C5C);
    (str "indigo", from_trgb 0x004B0082);
    (str "ivory", from_trgb 0x00FFFFF0);
    (str "khaki", from_trgb 0x00F0E68C);
    (str "lavender", from_trgb 0x00E6E6FA);
    (str "lavenderblush", from_trgb 0x00FFF0F5);
    (str "lawngreen", from_trgb 0x007CFC00);
    (str "lemonchiffon", from_trgb 0x00FFFACD);
    (str "lightblue", from_trgb 0x00ADD8E6);
    (str "lightcoral", from_trgb 0x00F08080);
    (str "lightcyan", from_trgb 0x00E0FFFF);
    (str "lightgoldenrodyellow", from_trgb 0x00FAFAD2);
    (str "lightgray", from_trgb 0x00D3D3D3);
    (str "lightgreen", from_trgb 0x0090EE90);
    (str "lightgrey", from_trgb 0x00D3D3D3);
    (str "lightpink", from_trgb 0x00FFB6C1);
    (str "lightsalmon", from_trgb 0x00FFA07A);
    (str "lightseagreen", from_trgb 0x0020B2AA);
    (str "lightskyblue", from_trgb 0x0087CEFA);
    (str "lightslategray", from_trgb 0x00778899);
    (str "lightslategrey", from_trgb 0x00778899);
    (str "lightsteelblue", from_trgb 0x00B0C4DE);
    (str "lightyellow", from_trgb 0x00FFFFE0);
    (str "lime", from_trgb 0x0000FF00);
    (str "limegreen", from_trgb 0x0032CD32);
    (str "linen", from_trgb 0x00FAF0E6);
    (str "magenta", from_trgb 0x00FF00FF);
    (str "maroon", from_trgb 0x00800000);
    (str "mediumaquamarine", from_trgb 0x0066CDAA);
    (str "mediumblue", from_trgb 0x000000CD);
    (str "mediumorchid", from_trgb 0x00BA55D3);
    (str "mediumpurple", from_trgb 0x009370DB);
    (str "mediumseagreen", from_trgb 0x003CB371);
    (str "mediumslateblue", from_trgb 0x007B68EE);
    (str "mediumspringgreen", from_trgb 0x0000FA9A);
    (str "mediumturquoise", from_trgb 0x0048D1CC);
    (str "mediumvioletred", from_trgb 0x00C71585);
    (str "midnightblue", from_trgb 0x00191970);
    (str "mintcream", from_trgb 0x00F5FFFA);
    (str "mistyrose", from_trgb 0x00FFE4E1);
    (str "moccasin", from_trgb 0x00FFE4B5);
    (str "navajowhite", from_trgb 0x00FFDEAD);
    (str "navy", from_trgb 0x00000080);
    (str "oldlace", from_trgb 0x00FDF5E6);
    (str "olive", from_trgb 0x00808000);
    (str "olivedrab", from_trgb 0x006B8E23);
    (str "orange", from_trgb 0x00FFA500);
    (str "orangered", from_trgb 0x00FF4500);
    (str "orchid", from_trgb 0x00DA70D6);
    (str "palegoldenrod", from_trgb 0x00EEE8AA);
    (str "palegreen", from_trgb 0x0098FB98);
    (str "paleturquoise", from_trgb 0x00AFEEEE);
    (str "palevioletred", from_trgb 0x00DB7093);
    (str "papayawhip", from_trgb 0x00FFEFD5);
    (str "peachpuff", from_trgb 0x00FFDAB9);
    (str "peru", from_trgb 0x00CD853F);
    (str "pink", from_trgb 0x00FFC0CB);
    (str "plum", from_trgb 0x00DDA0DD);
    (str "powderblue", from_trgb 0x00B0E0E6);
    (str "purple", from_trgb 0x00800080);
    (str "red", from_trgb 0x00FF0000);
    (str "rosybrown", from_trgb 0x00BC8F8F);
    (str "royalblue", from_trgb 0x004169E1);
    (str "saddlebrown", from_trgb 0x008B4513);
    (str "salmon", from_trgb 0x00FA8072);
    (str "sandybrown", from_trgb 0x00F4A460);
    (str "seagreen", from_trgb 0x002E8B57);
    (str "seashell", from_trgb 0x00FFF5EE);
    (str "sienna", from_trgb 0x00A0522D);
    (str "silver", from_trgb 0x00C0C0C0);
    (str "skyblue", from_trgb 0x0087CEEB);
    (str "slateblue", from_trgb 0x006A5ACD);
    (str "slategray", from_trgb 0x00708090);
    (str "slategrey", from_trgb 0x00708090);
    (str "snow", from_trgb 0x00FFFAFA);
    (str "springgreen", from_trgb 0x0000FF7F);
    (str "steelblue", from_trgb 0x004682B4);
    (str "tan", from_trgb 0x00D2B48C);
    (str "teal", from_trgb 0x00008080);
    (str "thistle", from_trgb 0x00D8BFD8);
    (str "tomato", from_trgb 0x00FF6347);
    (str "turquoise", from_trgb 0x0040E0D0);
    (str "violet", from_trgb 0x00EE82EE);
    (str "wheat", from_trgb 0x00F5DEB3);
    (str "white", from_trgb 0x00FFFFFF);
    (str "whitesmoke", from_trgb 0x00F5F5F5);
    (str "yellow", from_trgb 0x00FFFF00) ].

(* to_rgba(): css_color.cpp:61-67 *)
Definition to_rgba (r g b a : Z) : Z :=
  Z.lor (Z.lor (Z.lor (wrap rgba_type (Z.shiftl r 24)) (wrap rgba_type (Z.shiftl g 16)))
               (wrap rgba_type (Z.shiftl b 8))) (wrap rgba_type (Z.shiftl a 0)).

(* operator< of std::string_view *)
Fixpoint sv_less (a b : list Z) : bool :=
  match a, b with
  | _, [] => false
  | [], _ :: _ => true
  | x :: a, y :: b => (x <? y) || ((x =? y) && sv_less a b)
  end.

(* operator== of std::string_view *)
Fixpoint sv_eq (a b : list Z) : bool :=
  match a, b with
  | [], [] => true
  | x :: a, y :: b => (x =? y) && sv_eq a b
  | _, _ => false
  end.

(* NamedColorMaps: css_color.cpp:291-324 *)
Definition name_map : option (list (list Z * nat)) :=
  stable_sort (fun a b => sv_less (fst a) (fst b))
    (combine (map fst named_colors) (seq 0 (length named_colors))).
Definition value_map : option (list (Z * nat)) :=
  stable_sort (fun a b => fst a <? fst b)
    (combine (map (fun e => to_rgba (h_r (snd e)) (h_g (snd e)) (h_b (snd e)) (h_a (snd e))) named_colors)
             (seq 0 (length named_colors))).

(* std::lower_bound(): the partition point; the range must be partitioned, that is, no
   element for which the condition is false is followed by one for which it is true *)
Fixpoint lower_bound {E} (before : E -> bool) (l : list E) : option nat :=
  match l with
  | [] => Some 0%nat
  | e :: l' =>
    if before e then (let? n := lower_bound before l' in Some (S n))
    else if existsb before l' then None else Some 0%nat
  end.

(* CssColor::find_named_color_by_name(): css_color.cpp:655-667 *)
Definition find_by_name (name : list Z) : option (option nat) :=
  let? map := name_map in
  let? i := lower_bound (fun e => sv_less (fst e) name) map in
  match nth_error map i with
  | Some e => if sv_eq (fst e) name then Some (Some (snd e)) else Some None
  | None => Some None
  end.

(* CssColor::find_named_color_by_value(): css_color.cpp:670-683 *)
Definition find_by_value (x : hex) : option (option nat) :=
  let? map := value_map in
  let value := to_rgba (h_r x) (h_g x) (h_b x) (h_a x) in
  let? i := lower_bound (fun e => fst e <? value) map in
  match nth_error map i with
  | Some e => if fst e =? value then Some (Some (snd e)) else Some None
  | None => Some None
  end.

(* CssColor::get_named_color(): css_color.cpp:648-652 *)
Definition get_named_color (i : nat) : option hex :=
  let? e := nth_error named_colors i in Some (snd e).

(* format_hex(), with lowercase being false as in every call: css_color.cpp:328-379.  The
   integer formatter is IntTextModel.format_a *)
Definition format_hex (r g b a : Z) (disable_short_form : bool) : option (list Z) :=
  let fully_opaque := 255 <=? a in
  let collapsible :=
    negb disable_short_form &&
    (Z.shiftr r 4 =? Z.land r 0x0F) &&
    (Z.shiftr g 4 =? Z.land g 0x0F) &&
    (Z.shiftr b 4 =? Z.land b 0x0F) &&
    (Z.shiftr a 4 =? Z.land a 0x0F) in
  let sh v k := wrap rgba_type (Z.shiftl v k) in
  let '(value, n) :=
    if collapsible then
      if fully_opaque then
        (Z.lor (Z.lor (sh (Z.land r 0x0F) 8) (sh (Z.land g 0x0F) 4)) (sh (Z.land b 0x0F) 0), 3)
      else
        (Z.lor (Z.lor (Z.lor (sh (Z.land r 0x0F) 12) (sh (Z.land g 0x0F) 8))
                      (sh (Z.land b 0x0F) 4)) (sh (Z.land a 0x0F) 0), 4)
    else
      if fully_opaque then
        (Z.lor (Z.lor (sh r 16) (sh g 8)) (sh b 0), 6)
      else
        (Z.lor (Z.lor (Z.lor (sh r 24) (sh g 16)) (sh b 8)) (sh a 0), 8) in
  match format_a (fun c => c) rgba_type false value 16 n with
  | Some (Some string) => Some (35 :: string)
  | _ => None
  end.

(* format_name(), with uppercase being false as in the only call: css_color.cpp:382-394 *)
Definition format_name (index : nat) : option (list Z) :=
  let? e := nth_error named_colors index in Some (fst e).

(* the buffer with the eight hexadecimal digits in CssColor::parse(), or None if the
   number of digits is wrong: css_color.cpp:739-765 *)
Definition hex_buffer (s : list Z) : option (list Z) :=
  match s with
  | [c0; c1; c2] => Some [c0; c0; c1; c1; c2; c2; 70; 70]
  | [c0; c1; c2; c3] => Some [c0; c0; c1; c1; c2; c2; c3; c3]
  | [c0; c1; c2; c3; c4; c5] => Some [c0; c1; c2; c3; c4; c5; 70; 70]
  | [c0; c1; c2; c3; c4; c5; c6; c7] => Some [c0; c1; c2; c3; c4; c5; c6; c7]
  | _ => None
  end.

(* the hexadecimal form in CssColor::parse(): css_color.cpp:739-780.  The integer parser is
   IntTextModel.parse *)
Definition parse_hex_form (s : list Z) : option (option hex) :=
  match hex_buffer s with
  | None => Some None
  | Some buffer =>
    let? (ok, value) := parse (fun c => c) rgba_type 16 SignReject buffer 0 in
    if (ok : bool) then
      Some (Some (Hex (comp (Z.land (Z.shiftr value (3 * 8)) 0xFF))
                      (comp (Z.land (Z.shiftr value (2 * 8)) 0xFF))
                      (comp (Z.land (Z.shiftr value (1 * 8)) 0xFF))
                      (comp (Z.land (Z.shiftr value (0 * 8)) 0xFF))))
    else Some None
  end.

Section Css.
(* Floating-point numbers, the number 1, the comparison a >= 1, the text that the string
   formatter produces for a number, and the value parser for numbers *)
Context {F : Type} (one : F) (ge_one : F -> bool) (print : F -> list Z) (read : list Z -> option F).

(* CssColor with its form: css_color.hpp:67-101, 134-143 *)
Inductive css_color :=
| CHex (x : hex)
| CName (index : nat)
| CRgb (r g b a : F)
| CRgbP (r g b a : F)
| CHsl (h s l a : F).

(* format_rgb(), with uppercase and no_space_after_comma being false as in every call; the
   expansion of the format templates is written out: css_color.cpp:397-453 *)
Definition format_rgb (r g b a : F) (percent : bool) : list Z :=
  if ge_one a then
    if negb percent then
      str "rgb(" ++ print r ++ str ", " ++ print g ++ str ", " ++ print b ++ str ")"
    else
      str "rgb(" ++ print r ++ str "%, " ++ print g ++ str "%, " ++ print b ++ str "%)"
  else
    if negb percent then
      str "rgba(" ++ print r ++ str ", " ++ print g ++ str ", " ++ print b ++ str ", " ++ print a ++ str ")"
    else
      str "rgba(" ++ print r ++ str "%, " ++ print g ++ str "%, " ++ print b ++ str "%, " ++ print a ++ str ")".

(* format_hsl(), likewise: css_color.cpp:456-492 *)
Definition format_hsl (h s l a : F) : list Z :=
  if ge_one a then
    str "hsl(" ++ print h ++ str ", " ++ print s ++ str "%, " ++ print l ++ str "%)"
  else
    str "hsla(" ++ print h ++ str ", " ++ print s ++ str "%, " ++ print l ++ str "%, " ++ print a ++ str ")".

(* CssColor::format(): css_color.cpp:692-725 *)
Definition format (c : css_color) (disable_short_hex_form : bool) : option (list Z) :=
  match c with
  | CHex x => format_hex (h_r x) (h_g x) (h_b x) (h_a x) disable_short_hex_form
  | CName i => format_name i
  | CRgb r g b a => Some (format_rgb r g b a false)
  | CRgbP r g b a => Some (format_rgb r g b a true)
  | CHsl h s l a => Some (format_hsl h s l a)
  end.

(* the loop at label again, from the character after the comma: css_color.cpp:511-519 *)
Fixpoint skip_spaces (p : list Z) : option (list Z) :=
  match p with
  | [] => None
  | c :: p' => if c =? 32 then skip_spaces p' else Some p
  end.

(* the loop at label arg, giving the characters passed and what remains:
   css_color.cpp:528-537 *)
Fixpoint scan (p : list Z) : list Z * list Z :=
  match p with
  | [] => ([], [])
  | c :: p' => if negb (c =? 37) && negb (c =? 44) then let '(a, q) := scan p' in (c :: a, q) else ([], p)
  end.

(* label arg in ArgsParser::parse(): css_color.cpp:526-551 *)
Definition parse_number (p : list Z) : option (F * bool * list Z) :=
  match p with
  | [] => None
  | _ :: _ =>
    let '(a, q) := scan p in
    match read a with
    | Some v =>
      match q with
      | c :: q' => if c =? 37 then Some (v, true, q') else Some (v, false, q)
      | [] => Some (v, false, q)
      end
    | None => None
    end
  end.

(* ArgsParser::parse(); p is the text from m_curr to m_end, and at_begin tells whether
   m_curr is m_begin.  The outcome None is the value false; the assertion at label arg
   holds in each of the two places that go there: css_color.cpp:505-552 *)
Definition parse_arg (at_begin : bool) (p : list Z) : option (F * bool * list Z) :=
  match p with
  | [] => None
  | c :: p' =>
    if negb at_begin then
      if c =? 44 then
        match skip_spaces p' with
        | Some q => parse_number q
        | None => None
        end
      else None
    else parse_number p
  end.

(* is m_curr equal to m_begin, when p remains of args *)
Definition at_begin (args p : list Z) : bool := (length p =? length args)%nat.

(* the calls of ArgsParser::parse() and at_end() in parse_rgb_args() and parse_hsl_args():
   css_color.cpp:572-576, 598-602 *)
Definition parse_args (args : list Z) (with_alpha : bool) : option ((F * bool) * (F * bool) * (F * bool) * (F * bool)) :=
  let? (x, x_per, p) := parse_arg (at_begin args args) args in
  let? (y, y_per, p) := parse_arg (at_begin args p) p in
  let? (z, z_per, p) := parse_arg (at_begin args p) p in
  let? (a, a_per, p) := (if with_alpha then parse_arg (at_begin args p) p else Some (one, false, p)) in
  match p with
  | [] => Some ((x, x_per), (y, y_per), (z, z_per), (a, a_per))
  | _ :: _ => None
  end.

(* parse_rgb_args(): css_color.cpp:567-590 *)
Definition parse_rgb_args (args : list Z) (with_alpha : bool) : option css_color :=
  let? ((r, r_per), (g, g_per), (b, b_per), (a, a_per)) := parse_args args with_alpha in
  if Bool.eqb g_per r_per && Bool.eqb b_per r_per && negb a_per then
    if negb r_per then Some (CRgb r g b a) else Some (CRgbP r g b a)
  else None.

(* parse_hsl_args(): css_color.cpp:593-612 *)
Definition parse_hsl_args (args : list Z) (with_alpha : bool) : option css_color :=
  let? ((h, h_per), (s, s_per), (l, l_per), (a, a_per)) := parse_args args with_alpha in
  if negb h_per && s_per && l_per && negb a_per then Some (CHsl h s l a) else None.

(* the loop that looks for the opening parenthesis, in the text without its last
   character: css_color.cpp:789-803 *)
Fixpoint split_call (s : list Z) : option (list Z * list Z) :=
  match s with
  | [] => None
  | c :: s' =>
    if negb (c =? 40) then let? (label, args) := split_call s' in Some (c :: label, args)
    else Some ([], s')
  end.

(* the functional forms in CssColor::parse(), given the text without its last character:
   css_color.cpp:789-822 *)
Definition parse_call (s : list Z) : option css_color :=
  match split_call s with
  | None => None
  | Some (label, args) =>
    if sv_eq label (str "rgb") || sv_eq label (str "rgba") then
      parse_rgb_args args (sv_eq label (str "rgba"))
    else if sv_eq label (str "hsl") || sv_eq label (str "hsla") then
      parse_hsl_args args (sv_eq label (str "hsla"))
    else None
  end.

(* CssColor::parse(): css_color.cpp:728-834 *)
Definition parse_css (s : list Z) : option (option css_color) :=
  match s with
  | [] => let? r := find_by_name s in Some (option_map CName r)
  | ch :: s' =>
    if ch =? 35 then
      let? r := parse_hex_form s' in Some (option_map CHex r)
    else if last s 0 =? 41 then Some (parse_call (removelast s))
    else let? r := find_by_name s in Some (option_map CName r)
  end.

(* to_hex() for the functional forms is arithmetic on floating-point numbers and color
   space conversion: css_color.cpp:81-115 *)
Context (to_hex : css_color -> hex).

(* CssColor::get_as_hex(): css_color.cpp:629-645 *)
Definition get_as_hex (c : css_color) : option hex :=
  match c with
  | CHex x => Some x
  | CName i => get_named_color i
  | _ => Some (to_hex c)
  end.

(* operator<< for as_css_color(), for a stream with characters that are their own
   narrow form: as_css_color.hpp:75-101 *)
Definition write_color (color : hex) : option (list Z) :=
  let? name := find_by_value color in
  let css_color := match name with Some i => CName i | None => CHex color end in
  format css_color true.

(* parse_value() for as_css_color(), likewise: as_css_color.hpp:104-119 *)
Definition read_color (s : list Z) : option (option hex) :=
  let? r := parse_css s in
  match r with
  | Some c => let? x := get_as_hex c in Some (Some x)
  | None => Some None
  end.

End Css.
Arguments css_color F : clear implicits.
