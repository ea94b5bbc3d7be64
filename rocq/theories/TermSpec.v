(* Specification for C221: a terminal that interprets SGR (Select Graphic Rendition) sequences *)
From Coq Require Import Arith Bool String Ascii List.
From Verif Require Import TermModel.
Local Open Scope string_scope.

(* what the terminal remembers; None is for the default color *)
Record style := Style {
  s_weight : weight; s_underline : bool; s_blink : bool; s_reverse : bool; s_color : option color; s_background : option color }.

Definition default_style : style := Style w_normal false false false None None.

(* the meaning of a parameter *)
Definition sgr (n : nat) (s : style) : option style :=
  let (w, u, b, r, c, g) := s in
  match n with
  | 0 => Some default_style
  | 1 => Some (Style w_bold u b r c g)
  | 2 => Some (Style w_faint u b r c g)
  | 22 => Some (Style w_normal u b r c g)
  | 4 => Some (Style w true b r c g)
  | 24 => Some (Style w false b r c g)
  | 5 => Some (Style w u true r c g)
  | 25 => Some (Style w u false r c g)
  | 7 => Some (Style w u b true c g)
  | 27 => Some (Style w u b false c g)
  | 30 => Some (Style w u b r (Some black) g)
  | 31 => Some (Style w u b r (Some red) g)
  | 32 => Some (Style w u b r (Some green) g)
  | 33 => Some (Style w u b r (Some yellow) g)
  | 34 => Some (Style w u b r (Some blue) g)
  | 35 => Some (Style w u b r (Some magenta) g)
  | 36 => Some (Style w u b r (Some cyan) g)
  | 37 => Some (Style w u b r (Some white) g)
  | 39 => Some (Style w u b r None g)
  | 40 => Some (Style w u b r c (Some black))
  | 41 => Some (Style w u b r c (Some red))
  | 42 => Some (Style w u b r c (Some green))
  | 43 => Some (Style w u b r c (Some yellow))
  | 44 => Some (Style w u b r c (Some blue))
  | 45 => Some (Style w u b r c (Some magenta))
  | 46 => Some (Style w u b r c (Some cyan))
  | 47 => Some (Style w u b r c (Some white))
  | 49 => Some (Style w u b r c None)
  | _ => None
  end.

(* decimal parameters separated by semicolons, and then the letter m; a parameter without digits is zero *)
Fixpoint params (text : string) (n : nat) (s : style) : option style :=
  match text with
  | EmptyString => None
  | String ch rest =>
      if Ascii.eqb ch "m" then (if String.eqb rest "" then sgr n s else None)
      else if Ascii.eqb ch ";" then match sgr n s with Some s => params rest 0 s | None => None end
      else
        let code := nat_of_ascii ch in
        if Nat.leb 48 code && Nat.leb code 57 then params rest (10 * n + (code - 48))%nat s else None
  end.

(* at most one escape sequence *)
Definition terminal (text : string) (s : style) : option style :=
  match text with
  | EmptyString => Some s
  | String ch1 (String ch2 rest) => if Ascii.eqb ch1 "027" && Ascii.eqb ch2 "[" then params rest 0 s else None
  | _ => None
  end.

(* the style that is asked for *)
Definition style_of (a : attrs) : style :=
  Style (a_weight a) (a_underline a) (a_blink a) (a_reverse a)
    (if a_has_color a then Some (a_color a) else None)
    (if a_has_background_color a then Some (a_background_color a) else None).
