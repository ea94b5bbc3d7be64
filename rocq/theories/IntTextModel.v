(* Model of core/integer_parser.hpp and core/integer_formatter.hpp, and of the
   digit counting functions of core/integer.hpp (C39, C43).

   Narrow characters are their ASCII codes in Z.  The wide character type and the
   character mapper (BasicCharMapper::widen and ::narrow with default '\0') are
   parameters.  None is undefined behaviour, a failed assertion or an exhausted
   loop bound. *)
From Coq Require Import ZArith List Bool.
From Verif Require Import CInt IntModel.
Import ListNotations.
Open Scope Z_scope.

(* ---- integer.hpp ---- *)

(* int_find_msd_pos, the loop: integer.hpp:1125-1128; t is the type of val_2.  The
   loop variable i is an int; it stays far below INT_MAX because every iteration
   divides by the base, so its increment is not checked. *)
Fixpoint find_msd_loop (fuel : nat) (t : ity) (val base i : Z) : option Z :=
  match fuel with
  | O => None
  | S fuel =>
    if negb (val =? 0) then
      let* q := cdiv (t, val) (t, base) in
      find_msd_loop fuel t (wrap t (snd q)) base (i + 1)
    else Some i
  end.

(* int_find_msd_pos: integer.hpp:1118-1132.  The number of iterations is bounded by
   the width of the type for every base of magnitude 2 or more. *)
Definition int_find_msd_pos (T : ity) (val base : Z) : option Z :=
  let t := strongly_promoted_type T in
  let val2 := int_cast_a t val in
  if wrap t base <=? imax t then
    find_msd_loop (S (Z.to_nat (iwidth t))) t val2 (wrap t base) (-1)
  else Some (if negb (val2 =? 0) then 0 else -1).

(* int_num_digits: integer.hpp:1135-1138 *)
Definition int_num_digits (T : ity) (val base : Z) : option Z :=
  let* p := int_find_msd_pos T val base in Some (1 + p).

(* int_max_digits: integer.hpp:1141-1145 *)
Definition int_max_digits (T : ity) (base : Z) : option Z :=
  let* p := int_find_msd_pos T (imin T) base in
  let* q := int_find_msd_pos T (imax T) base in
  Some (1 + Z.max p q).

(* ---- integer_parser.hpp ---- *)

(* the cases of the switch in integer_parser_map_digit: integer_parser.hpp:131-256 *)
Definition map_digit_cases : list (Z * Z) :=
  [ (48, 0); (49, 1); (50, 2); (51, 3); (52, 4); (53, 5); (54, 6); (55, 7); (56, 8); (57, 9);
    (65, 10); (66, 11); (67, 12); (68, 13); (69, 14); (70, 15); (71, 16); (72, 17); (73, 18);
    (74, 19); (75, 20); (76, 21); (77, 22); (78, 23); (79, 24); (80, 25); (81, 26); (82, 27);
    (83, 28); (84, 29); (85, 30); (86, 31); (87, 32); (88, 33); (89, 34); (90, 35);
    (97, 10); (98, 11); (99, 12); (100, 13); (101, 14); (102, 15); (103, 16); (104, 17); (105, 18);
    (106, 19); (107, 20); (108, 21); (109, 22); (110, 23); (111, 24); (112, 25); (113, 26); (114, 27);
    (115, 28); (116, 29); (117, 30); (118, 31); (119, 32); (120, 33); (121, 34); (122, 35) ].

Fixpoint switch (cases : list (Z * Z)) (ch : Z) : Z :=
  match cases with
  | [] => -1
  | (c, v) :: cases => if ch =? c then v else switch cases ch
  end.

(* integer_parser_map_digit(ch): integer_parser.hpp:129-258 *)
Definition map_digit (ch : Z) : Z := switch map_digit_cases ch.

(* integer_parser_map_digit(ch, radix, digit): integer_parser.hpp:261-269 *)
Definition map_digit_radix (ch radix : Z) : option Z :=
  let value := map_digit ch in
  if negb (value =? -1) && (value <? radix) then Some value else None.

(* IntegerParserBase::Sign: integer_parser.hpp:48-53; Sign2: 103-107 *)
Inductive sign_mode := SignAuto | SignAccept | SignAcceptMinus | SignReject.
Inductive sign_mode2 := Sign2Accept | Sign2AcceptMinus | Sign2Reject.

(* map_sign: integer_parser.hpp:364-379 *)
Definition map_sign (I : ity) (s : sign_mode) : sign_mode2 :=
  match s with
  | SignAccept => Sign2Accept
  | SignAcceptMinus => Sign2AcceptMinus
  | SignReject => Sign2Reject
  | SignAuto => if isigned I then Sign2AcceptMinus else Sign2Reject
  end.

Section CharType.
Context {C : Type} (widen : Z -> C) (narrow : C -> Z).

(* parse, the loop: integer_parser.hpp:314-323 *)
Fixpoint parse_loop (I : ity) (radix sign_val : Z) (s : list C) (val : Z) : option (option Z) :=
  match s with
  | [] => Some (Some val)
  | ch :: s =>
    match map_digit_radix (narrow ch) radix with
    | None => Some None
    | Some digit =>
      let* r := try_int_mul I t_int val radix in
      if negb (fst r) then Some None else
      let* sd := cmul (t_int, sign_val) (t_int, digit) in
      let* r2 := try_int_add I t_int (snd r) (snd sd) in
      if negb (fst r2) then Some None else
      parse_loop I radix sign_val s (snd r2)
    end
  end.

(* parse: integer_parser.hpp:284-328.  The result is the return value and the final
   value of var. *)
Definition parse (I : ity) (radix : Z) (sign : sign_mode) (s : list C) (var : Z) : option (bool * Z) :=
  let '(sign_val, s2) :=
    match map_sign I sign with
    | Sign2Accept =>
      match s with
      | ch :: rest =>
        let ch2 := narrow ch in
        if (ch2 =? 43) || (ch2 =? 45) then ((if ch2 =? 43 then 1 else -1), rest) else (1, s)
      | [] => (1, s)
      end
    | Sign2AcceptMinus =>
      match s with
      | ch :: rest =>
        let ch2 := narrow ch in
        if ch2 =? 45 then (-1, rest) else (1, s)
      | [] => (1, s)
      end
    | Sign2Reject => (1, s)
    end in
  match s2 with
  | [] => Some (false, var)
  | _ =>
    let* r := parse_loop I radix sign_val s2 0 in
    match r with
    | Some val => Some (true, val)
    | None => Some (false, var)
    end
  end.

(* ---- integer_formatter.hpp ---- *)

(* format_int_uc_digits: integer_formatter.hpp:45-50 *)
Definition uc_digits : list Z :=
  [ 48; 49; 50; 51; 52; 53; 54; 55; 56; 57;
    65; 66; 67; 68; 69; 70; 71; 72; 73; 74;
    75; 76; 77; 78; 79; 80; 81; 82; 83; 84;
    85; 86; 87; 88; 89; 90 ].

(* format_int_lc_digits: integer_formatter.hpp:58-63 *)
Definition lc_digits : list Z :=
  [ 48; 49; 50; 51; 52; 53; 54; 55; 56; 57;
    97; 98; 99; 100; 101; 102; 103; 104; 105; 106;
    107; 108; 109; 110; 111; 112; 113; 114; 115; 116;
    117; 118; 119; 120; 121; 122 ].

(* the loops of do_format and do_format_a: integer_formatter.hpp:316-322, 326-332,
   355-361, 365-371.  acc is the part of m_buffer already filled in (the buffer is
   filled from its end; its growth is the subject of C26).  The number of digits is
   compared as an unbounded integer, int(m_buffer.size() - offset) in the code. *)
Fixpoint format_loop (fuel : nat) (I : ity) (digits : list Z) (neg : bool)
    (radix min_num_digits value : Z) (acc : list C) : option (list C) :=
  match fuel with
  | O => None
  | S fuel =>
    if negb (value =? 0) || (Z.of_nat (length acc) <? min_num_digits) then
      let* res := int_divmod I value (wrap I radix) in
      let rem0 := wrap t_int (snd res) in
      let* rem := (if neg then (let* n := cneg (t_int, rem0) in Some (snd n)) else Some rem0) in
      if (0 <=? rem) && (rem <? 36) then
        let* ch := nth_error digits (Z.to_nat rem) in
        format_loop fuel I digits neg radix min_num_digits (fst res) (widen ch :: acc)
      else None
    else Some acc
  end.

(* do_format_a: integer_formatter.hpp:342-376; do_format (302-337) is the same with a
   radix known at compile time.  Some None is the exception std::invalid_argument. *)
Definition do_format_a (I : ity) (digits : list Z) (value radix min_num_digits : Z) :
    option (option (list C)) :=
  if (radix <? 2) || (36 <? radix) then Some None
  else
    let fuel := (Z.to_nat (iwidth I) + Z.to_nat min_num_digits + 1)%nat in
    let neg := is_negative I value in
    let* s := format_loop fuel I digits neg radix min_num_digits value [] in
    Some (Some (if neg then widen 45 :: s else s)).

(* format_a: integer_formatter.hpp:282-290; format (232-245) differs only in that the
   radix is a template parameter.  use_lowercase: 294-297 *)
Definition format_a (I : ity) (lowercase : bool) (value radix min_num_digits : Z) :
    option (option (list C)) :=
  let* mnd := (if min_num_digits <? 0 then int_max_digits I radix else Some min_num_digits) in
  let t := strongly_promoted_type I in
  do_format_a t (if lowercase then lc_digits else uc_digits) (int_cast_a t value) radix mnd.

End CharType.
