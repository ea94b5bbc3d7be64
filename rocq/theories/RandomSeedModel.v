(* Model of the serialized form of random seeds: check/random_seed.hpp and random_seed.cpp. *)
From Coq Require Import ZArith Bool List.
From Verif Require Import CInt IntModel ArrLib.
Import ListNotations.
Open Scope Z_scope.

(* g_random_seed_base62_chars: random_seed.hpp:204-209 *)
Definition base62_chars : list Z :=
[
  48; 49; 50; 51; 52; 53; 54; 55; 56; 57; 65; 66; 67; 68; 69; 70; 71; 72; 73; 74; 75; 76; 77; 78; 79; 80; 81;
  82; 83; 84; 85; 86; 87; 88; 89; 90; 97; 98; 99; 100; 101; 102; 103; 104; 105; 106; 107; 108; 109; 110; 111;
  112; 113; 114; 115; 116; 117; 118; 119; 120; 121; 122
].

(* the cases of random_seed_map_digit(): random_seed.hpp:212-341 *)
Definition map_digit_cases : list (Z * Z) :=
[
  (48, 0); (49, 1); (50, 2); (51, 3); (52, 4); (53, 5); (54, 6); (55, 7); (56, 8); (57, 9); (65, 10);
  (66, 11); (67, 12); (68, 13); (69, 14); (70, 15); (71, 16); (72, 17); (73, 18); (74, 19); (75, 20);
  (76, 21); (77, 22); (78, 23); (79, 24); (80, 25); (81, 26); (82, 27); (83, 28); (84, 29); (85, 30);
  (86, 31); (87, 32); (88, 33); (89, 34); (90, 35); (97, 36); (98, 37); (99, 38); (100, 39); (101, 40);
  (102, 41); (103, 42); (104, 43); (105, 44); (106, 45); (107, 46); (108, 47); (109, 48); (110, 49);
  (111, 50); (112, 51); (113, 52); (114, 53); (115, 54); (116, 55); (117, 56); (118, 57); (119, 58);
  (120, 59); (121, 60); (122, 61)
].

(* random_seed_map_digit: random_seed.hpp:344-352.  The switch selects the first, and only, case for the character. *)
Definition map_digit (ch : Z) : option Z :=
  match find (fun c => fst c =? ch) map_digit_cases with
  | Some c => Some (snd c)
  | None => None
  end.

(* RandomSeed(Span): random_seed.cpp:29-35 *)
Definition make_seed (values : list Z) : list Z :=
  let num_blocks := (length values / 6)%nat in
  let size := (num_blocks * 6)%nat in
  firstn size values.

Section Seed.
(* fw: width of std::uint_fast64_t, vw: width of RandomSeed::value_type *)
Context (fw vw : Z).
Definition uint64 : ity := ITy fw false.
Definition value_type : ity := ITy vw false.

(* ---- stream output operator: random_seed.hpp:358-404 ---- *)

(* the loop over the digits of a subblock: random_seed.hpp:372-375.  Positions of encode_buffer are filled from the end of
   the subblock, so acc is what has been filled in. *)
Fixpoint encode_loop (n : nat) (value : Z) (acc : list Z) : option (list Z) :=
  match n with
  | O => Some acc
  | S n =>
    let? ch := nth_error base62_chars (Z.to_nat (value mod 62)) in
    encode_loop n (value / 62) (ch :: acc)
  end.

(* one iteration of the loop in format_block(): random_seed.hpp:368-376 *)
Definition encode_subblock (seed_data : list Z) (offset : nat) : option (list Z) :=
  let? w_0 := nth_error seed_data (offset + 0) in
  let value := Z.lor 0 (wrap uint64 (Z.shiftl (wrap uint64 w_0) (0 * 32))) in
  let? w_1 := nth_error seed_data (offset + 1) in
  let value := Z.lor value (wrap uint64 (Z.shiftl (wrap uint64 w_1) (1 * 32))) in
  encode_loop 11 value [].

(* format_block: random_seed.hpp:367-387, before widening *)
Definition format_block (seed_data : list Z) (offset : nat) : option (list Z) :=
  let? s_0 := encode_subblock seed_data (offset + 0 * 2) in
  let? s_1 := encode_subblock seed_data (offset + 1 * 2) in
  let? s_2 := encode_subblock seed_data (offset + 2 * 2) in
  Some (s_0 ++ s_1 ++ s_2).

Section CharType.
Context {C : Type} (ceqb : C -> C -> bool).
(* the character mapper and the character classification of the locale *)
Context (widen : Z -> C) (narrow : C -> Z) (is_alnum : C -> bool).

Definition sep : C := widen 45.

(* the loop over the blocks: random_seed.hpp:392-398, n is the number of remaining blocks, less one *)
Fixpoint format_blocks (seed_data : list Z) (i n : nat) : option (list C) :=
  let? block := format_block seed_data (i * 6) in
  match n with
  | O => Some (map widen block)
  | S n =>
    let? rest := format_blocks seed_data (S i) n in
    Some (map widen block ++ sep :: rest)
  end.

(* operator<<: random_seed.hpp:358-404.  None if an assertion fails, or on access out of bounds. *)
Definition write_seed (seed : list Z) : option (list C) :=
  let num_blocks := (length seed / 6)%nat in
  if (length seed =? num_blocks * 6)%nat then
    match num_blocks with
    | S n => format_blocks seed 0 n
    | O => Some [sep]
    end
  else None.

(* ---- stream input operator: random_seed.hpp:407-472 ---- *)

(* the loop over the characters of a subblock in parse_block(): random_seed.hpp:421-430.  Some None means that false is
   returned. *)
Fixpoint parse_digits (chars : list Z) (value : Z) : option (option Z) :=
  match chars with
  | [] => Some (Some value)
  | ch :: chars =>
    match map_digit ch with
    | None => Some None
    | Some digit =>
      let? (ok, value) := try_int_mul uint64 t_int value 62 in
      if ok then
        let? (ok, value) := try_int_add uint64 t_int value digit in
        if ok then parse_digits chars value else Some None
      else Some None
    end
  end.

(* one iteration of the outer loop in parse_block(): random_seed.hpp:419-438.  The result is the two words, that are added. *)
Definition parse_subblock (chars : list Z) : option (option (list Z)) :=
  let? r := parse_digits chars 0 in
  match r with
  | None => Some None
  | Some value =>
    let? limit := int_mask uint64 64 in
    if value >=? limit then Some None
    else
      let? mask := int_mask value_type 32 in
      let word_1 := wrap value_type (Z.land value mask) in
      let word_2 := wrap value_type (Z.land (Z.shiftr value 32) mask) in
      Some (Some [word_1; word_2])
  end.

(* parse_block: random_seed.hpp:418-440 for the 33 characters of block *)
Definition parse_block (block : list Z) : option (option (list Z)) :=
  let? r_0 := parse_subblock (firstn 11 block) in
  match r_0 with
  | None => Some None
  | Some words_0 =>
    let? r_1 := parse_subblock (firstn 11 (skipn 11 block)) in
    match r_1 with
    | None => Some None
    | Some words_1 =>
      let? r_2 := parse_subblock (firstn 11 (skipn 22 block)) in
      match r_2 with
      | None => Some None
      | Some words_2 => Some (Some (words_0 ++ words_1 ++ words_2))
      end
    end
  end.

(* what the operator does: seed is the new value, or None for failure, in which case the seed is unchanged; rest is what is left in the
   stream; eof tells whether the end was noticed *)
Record read_result := { rr_seed : option (list Z); rr_rest : list C; rr_eof : bool }.

(* the condition at 461 *)
Definition end_block (block : list Z) : option (option (list Z)) :=
  if (length block =? 33)%nat then parse_block block else Some None.

(* the two loops at random_seed.hpp:449-467.  ch :: rest is what is left in the stream, with ch the character that has been read. *)
Fixpoint read_blocks (ch : C) (rest : list C) (block words : list Z) : option read_result :=
  if is_alnum ch then
    let block := if (length block <? 33)%nat then block ++ [narrow ch] else block in
    match rest with
    | ch :: rest => read_blocks ch rest block words
    | [] =>
      let? r := end_block block in
      match r with
      | None => Some {| rr_seed := None; rr_rest := []; rr_eof := true |}
      | Some more => Some {| rr_seed := Some (make_seed (words ++ more)); rr_rest := []; rr_eof := true |}
      end
    end
  else
    let? r := end_block block in
    match r with
    | None => Some {| rr_seed := None; rr_rest := ch :: rest; rr_eof := false |}
    | Some more =>
      let words := words ++ more in
      if negb (ceqb ch sep) then Some {| rr_seed := Some (make_seed words); rr_rest := ch :: rest; rr_eof := false |}
      else
        match rest with
        | ch :: rest => read_blocks ch rest [] words
        | [] => Some {| rr_seed := None; rr_rest := []; rr_eof := true |}
        end
    end.

(* the function passed to istream_sentry(): random_seed.hpp:409-471, with the members of BasicStreamInputHelper: stream_input.hpp:153-200.
   text is what is in the stream after white space has been skipped by the sentry. *)
Definition read_seed (text : list C) : option read_result :=
  match text with
  | [] => Some {| rr_seed := None; rr_rest := []; rr_eof := true |}
  | ch :: rest =>
    if ceqb ch sep then
      Some {| rr_seed := Some (make_seed []); rr_rest := rest; rr_eof := match rest with [] => true | _ => false end |}
    else read_blocks ch rest [] []
  end.

End CharType.
End Seed.
