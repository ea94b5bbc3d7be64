(* Independent specification of the textual forms of CSS colors *)
From Coq Require Import ZArith String.
From Coq Require Import List Bool.
From Verif Require Import IntTextSpec CssModel.
Import ListNotations.
Open Scope Z_scope.

(* i is the place of the first occurrence of k *)
Definition first_place {K} (l : list K) (k : K) (i : nat) : Prop :=
  nth_error l i = Some k /\ forall j, (j < i)%nat -> nth_error l j <> Some k.

(* components are bytes *)
Definition hex_ok (x : hex) : Prop :=
  0 <= h_r x < 256 /\ 0 <= h_g x < 256 /\ 0 <= h_b x < 256 /\ 0 <= h_a x < 256.

(* a hexadecimal digit, of either case, and its value *)
Definition hex_digit (c d : Z) : Prop := digit_char c d /\ d < 16.

(* the part after the number sign: 3, 4, 6, or 8 digits *)
Inductive hex_text : list Z -> hex -> Prop :=
| HexText3 : forall c1 c2 c3 d1 d2 d3, hex_digit c1 d1 -> hex_digit c2 d2 -> hex_digit c3 d3 ->
    hex_text [c1; c2; c3] (Hex (17 * d1) (17 * d2) (17 * d3) 255)
| HexText4 : forall c1 c2 c3 c4 d1 d2 d3 d4,
    hex_digit c1 d1 -> hex_digit c2 d2 -> hex_digit c3 d3 -> hex_digit c4 d4 ->
    hex_text [c1; c2; c3; c4] (Hex (17 * d1) (17 * d2) (17 * d3) (17 * d4))
| HexText6 : forall c1 c2 c3 c4 c5 c6 d1 d2 d3 d4 d5 d6,
    hex_digit c1 d1 -> hex_digit c2 d2 -> hex_digit c3 d3 -> hex_digit c4 d4 -> hex_digit c5 d5 ->
    hex_digit c6 d6 ->
    hex_text [c1; c2; c3; c4; c5; c6] (Hex (16 * d1 + d2) (16 * d3 + d4) (16 * d5 + d6) 255)
| HexText8 : forall c1 c2 c3 c4 c5 c6 c7 c8 d1 d2 d3 d4 d5 d6 d7 d8,
    hex_digit c1 d1 -> hex_digit c2 d2 -> hex_digit c3 d3 -> hex_digit c4 d4 -> hex_digit c5 d5 ->
    hex_digit c6 d6 -> hex_digit c7 d7 -> hex_digit c8 d8 ->
    hex_text [c1; c2; c3; c4; c5; c6; c7; c8] (Hex (16 * d1 + d2) (16 * d3 + d4) (16 * d5 + d6) (16 * d7 + d8)).

Section Grammar.
Context {F : Type} (one : F) (read : list Z -> option F) (names : list (list Z)).

(* a number, possibly with a percent sign after it *)
Definition arg_text (t : list Z) (v : F) (percent : bool) : Prop :=
  exists body, t = body ++ (if percent then [37] else []) /\ ~ In 37 body /\ ~ In 44 body /\ read body = Some v.

(* an argument other than the first: a comma, then any number of spaces, then an argument *)
Definition next_arg (t : list Z) (v : F) (percent : bool) : Prop :=
  exists n u, t = 44 :: repeat 32 n ++ u /\ hd 0 u <> 32 /\ arg_text u v percent.

Definition three_args (t : list Z) (x y z : F) (px py pz : bool) : Prop :=
  exists t1 t2 t3, t = t1 ++ t2 ++ t3 /\ arg_text t1 x px /\ next_arg t2 y py /\ next_arg t3 z pz.

Definition four_args (t : list Z) (x y z a : F) (px py pz pa : bool) : Prop :=
  exists t1 t2 t3 t4, t = t1 ++ t2 ++ t3 ++ t4 /\
    arg_text t1 x px /\ next_arg t2 y py /\ next_arg t3 z pz /\ next_arg t4 a pa.

Definition call (label : string) (args : list Z) : list Z := str label ++ 40 :: args ++ [41].

Inductive css_text : list Z -> css_color F -> Prop :=
| TextHex : forall t x, hex_text t x -> css_text (35 :: t) (CHex x)
| TextName : forall s i, nth_error names i = Some s -> css_text s (CName i)
| TextRgb : forall t r g b, three_args t r g b false false false -> css_text (call "rgb" t) (CRgb r g b one)
| TextRgbP : forall t r g b, three_args t r g b true true true -> css_text (call "rgb" t) (CRgbP r g b one)
| TextRgba : forall t r g b a, four_args t r g b a false false false false ->
    css_text (call "rgba" t) (CRgb r g b a)
| TextRgbaP : forall t r g b a, four_args t r g b a true true true false ->
    css_text (call "rgba" t) (CRgbP r g b a)
| TextHsl : forall t h s l, three_args t h s l false true true -> css_text (call "hsl" t) (CHsl h s l one)
| TextHsla : forall t h s l a, four_args t h s l a false true true false ->
    css_text (call "hsla" t) (CHsl h s l a).

End Grammar.

(* uppercase digits *)
Definition upper_digit (d : Z) : Z := if d <? 10 then 48 + d else 65 + (d - 10).

(* the digits of a color, in the short form if that is asked for and possible; without
   those of alpha if the color is opaque *)
Definition short_possible (x : hex) : bool :=
  (h_r x mod 17 =? 0) && (h_g x mod 17 =? 0) && (h_b x mod 17 =? 0) && (h_a x mod 17 =? 0).
Definition two_digits (v : Z) : list Z := [v / 16; v mod 16].
Definition color_digits (short : bool) (x : hex) : list Z :=
  if short && short_possible x then
    [h_r x / 17; h_g x / 17; h_b x / 17] ++ (if h_a x =? 255 then [] else [h_a x / 17])
  else
    two_digits (h_r x) ++ two_digits (h_g x) ++ two_digits (h_b x) ++
    (if h_a x =? 255 then [] else two_digits (h_a x)).
Definition hex_form (short : bool) (x : hex) : list Z := 35 :: map upper_digit (color_digits short x).

(* a number whose text has the same value when read, is not mistaken for something else,
   and starts with no space *)
Definition faithful {F} (print : F -> list Z) (read : list Z -> option F) (v : F) : Prop :=
  read (print v) = Some v /\ ~ In 37 (print v) /\ ~ In 44 (print v) /\ hd 0 (print v) <> 32.

(* The color keywords of CSS Color Module Level 3 (section 4.3), and transparent (section
   4.2.3) *)
Definition css3_colors : list (string * (Z * Z * Z)) :=
  [ ("aliceblue"%string, (240, 248, 255));
    ("antiquewhite"%string, (250, 235, 215));
    ("aqua"%string, (0, 255, 255));
    ("aquamarine"%string, (127, 255, 212));
    ("azure"%string, (240, 255, 255));
    ("beige"%string, (245, 245, 220));
    ("bisque"%string, (255, 228, 196));
    ("black"%string, (0, 0, 0));
    ("blanchedalmond"%string, (255, 235, 205));
    ("blue"%string, (0, 0, 255));
    ("blueviolet"%string, (138, 43, 226));
    ("brown"%string, (165, 42, 42));
    ("burlywood"%string, (222, 184, 135));
    ("cadetblue"%string, (95, 158, 160));
    ("chartreuse"%string, (127, 255, 0));
    ("chocolate"%string, (210, 105, 30));
    ("coral"%string, (255, 127, 80));
    ("cornflowerblue"%string, (100, 149, 237));
    ("cornsilk"%string, (255, 248, 220));
    ("crimson"%string, (220, 20, 60));
    ("cyan"%string, (0, 255, 255));
    ("darkblue"%string, (0, 0, 139));
    ("darkcyan"%string, (0, 139, 139));
    ("darkgoldenrod"%string, (184, 134, 11));
    ("darkgray"%string, (169, 169, 169));
    ("darkgreen"%string, (0, 100, 0));
    ("darkgrey"%string, (169, 169, 169));
    ("darkkhaki"%string, (189, 183, 107));
    ("darkmagenta"%string, (139, 0, 139));
    ("darkolivegreen"%string, (85, 107, 47));
    ("darkorange"%string, (255, 140, 0));
    ("darkorchid"%string, (153, 50, 204));
    ("darkred"%string, (139, 0, 0));
    ("darksalmon"%string, (233, 150, 122));
    ("darkseagreen"%string, (143, 188, 143));
    ("darkslateblue"%string, (72, 61, 139));
    ("darkslategray"%string, (47, 79, 79));
    ("darkslategrey"%string, (47, 79, 79));
    ("darkturquoise"%string, (0, 206, 209));
    ("darkviolet"%string, (148, 0, 211));
    ("deeppink"%string, (255, 20, 147));
    ("deepskyblue"%string, (0, 191, 255));
    ("dimgray"%string, (105, 105, 105));
    ("dimgrey"%string, (105, 105, 105));
    ("dodgerblue"%string, (30, 144, 255));
    ("firebrick"%string, (178, 34, 34));
    ("floralwhite"%string, (255, 250, 240));
    ("forestgreen"%string, (34, 139, 34));
    ("fuchsia"%string, (255, 0, 255));
    ("gainsboro"%string, (220, 220, 220));
    ("ghostwhite"%string, (248, 248, 255));
    ("gold"%string, (255, 215, 0));
    ("goldenrod"%string, (218, 165, 32));
    ("gray"%string, (128, 128, 128));
    ("green"%string, (0, 128, 0));
    ("greenyellow"%string, (173, 255, 47));
    ("grey"%string, (128, 128, 128));
    ("honeydew"%string, (240, 255, 240));
    ("hotpink"%string, (255, 105, 180));
    ("indianred"%string, (205, 92, 92));
    ("indigo"%string, (75, 0, 130));
    ("ivory"%string, (255, 255, 240));
    ("khaki"%string, (240, 230, 140));
    ("lavender"%string, (230, 230, 250));
    ("lavenderblush"%string, (255, 240, 245));
    ("lawngreen"%string, (124, 252, 0));
    ("lemonchiffon"%string, (255, 250, 205));
    ("lightblue"%string, (173, 216, 230));
    ("lightcoral"%string, (240, 128, 128));
    ("lightcyan"%string, (224, 255, 255));
    ("lightgoldenrodyellow"%string, (250, 250, 210));
    ("lightgray"%string, (211, 211, 211));
    ("lightgreen"%string, (144, 238, 144));
    ("lightgrey"%string, (211, 211, 211));
    ("lightpink"%string, (255, 182, 193));
    ("lightsalmon"%string, (255, 160, 122));
    ("lightseagreen"%string, (32, 178, 170));
    ("lightskyblue"%string, (135, 206, 250));
    ("lightslategray"%string, (119, 136, 153));
    ("lightslategrey"%string, (119, 136, 153));
    ("lightsteelblue"%string, (176, 196, 222));
    ("lightyellow"%string, (255, 255, 224));
    ("lime"%string, (0, 255, 0));
    ("limegreen"%string, (50, 205, 50));
    ("linen"%string, (250, 240, 230));
    ("magenta"%string, (255, 0, 255));
    ("maroon"%string, (128, 0, 0));
    ("mediumaquamarine"%string, (102, 205, 170));
    ("mediumblue"%string, (0, 0, 205));
    ("mediumorchid"%string, (186, 85, 211));
    ("mediumpurple"%string, (147, 112, 219));
    ("mediumseagreen"%string, (60, 179, 113));
    ("mediumslateblue"%string, (123, 104, 238));
    ("mediumspringgreen"%string, (0, 250, 154));
    ("mediumturquoise"%string, (72, 209, 204));
    ("mediumvioletred"%string, (199, 21, 133));
    ("midnightblue"%string, (25, 25, 112));
    ("mintcream"%string, (245, 255, 250));
    ("mistyrose"%string, (255, 228, 225));
    ("moccasin"%string, (255, 228, 181));
    ("navajowhite"%string, (255, 222, 173));
    ("navy"%string, (0, 0, 128));
    ("oldlace"%string, (253, 245, 230));
    ("olive"%string, (128, 128, 0));
    ("olivedrab"%string, (107, 142, 35));
    ("orange"%string, (255, 165, 0));
    ("orangered"%string, (255, 69, 0));
    ("orchid"%string, (218, 112, 214));
    ("palegoldenrod"%string, (238, 232, 170));
    ("palegreen"%string, (152, 251, 152));
    ("paleturquoise"%string, (175, 238, 238));
    ("palevioletred"%string, (219, 112, 147));
    ("papayawhip"%string, (255, 239, 213));
    ("peachpuff"%string, (255, 218, 185));
    ("peru"%string, (205, 133, 63));
    ("pink"%string, (255, 192, 203));
    ("plum"%string, (221, 160, 221));
    ("powderblue"%string, (176, 224, 230));
    ("purple"%string, (128, 0, 128));
    ("red"%string, (255, 0, 0));
    ("rosybrown"%string, (188, 143, 143));
    ("royalblue"%string, (65, 105, 225));
    ("saddlebrown"%string, (139, 69, 19));
    ("salmon"%string, (250, 128, 114));
    ("sandybrown"%string, (244, 164, 96));
    ("seagreen"%string, (46, 139, 87));
    ("seashell"%string, (255, 245, 238));
    ("sienna"%string, (160, 82, 45));
    ("silver"%string, (192, 192, 192));
    ("skyblue"%string, (135, 206, 235));
    ("slateblue"%string, (106, 90, 205));
    ("slategray"%string, (112, 128, 144));
    ("slategrey"%string, (112, 128, 144));
    ("snow"%string, (255, 250, 250));
    ("springgreen"%string, (0, 255, 127));
    ("steelblue"%string, (70, 130, 180));
    ("tan"%string, (210, 180, 140));
    ("teal"%string, (0, 128, 128));
    ("thistle"%string, (216, 191, 216));
    ("tomato"%string, (255, 99, 71));
    ("turquoise"%string, (64, 224, 208));
    ("violet"%string, (238, 130, 238));
    ("wheat"%string, (245, 222, 179));
    ("white"%string, (255, 255, 255));
    ("whitesmoke"%string, (245, 245, 245));
    ("yellow"%string, (255, 255, 0));
    ("yellowgreen"%string, (154, 205, 50)) ].

Definition css3_keyword (name : string) (x : hex) : Prop :=
  (exists r g b, In (name, (r, g, b)) css3_colors /\ x = Hex r g b 255) \/
  (name = "transparent"%string /\ x = Hex 0 0 0 0).

(* letters of either case are equivalent *)
Definition to_lower (c : Z) : Z := if (65 <=? c) && (c <=? 90) then c + 32 else c.
Definition css3_name_text (s : list Z) (x : hex) : Prop :=
  exists name, css3_keyword name x /\ map to_lower s = str name.
