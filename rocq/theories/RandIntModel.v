(* Model of core::rand_int(engine, min, max) for integer types that are not directly supported
   by std::uniform_int_distribution (src/archon/core/random.hpp:218-282), and of the word
   counts of NondeterministicRandomSeeder.

   pw is the width of the part type (unsigned, not promoted), np is the number of parts.  The
   draws of parts, which are made by recursive invocations for the part type (lines 274 and
   276), are given as a list.  Arrays of parts have np elements; the loops over all parts of
   two arrays are given by recursion over both at once.  None is undefined behaviour, or the
   lack of further draws. *)
From Coq Require Import ZArith Bool List.
From Verif Require Import CInt IntModel ArrLib.
Import ListNotations.
Open Scope Z_scope.

(* get_parts, from_parts: the requirements of integer_concept.hpp:164-175 (two's complement,
   least significant part first) *)
Fixpoint get_parts (pw : Z) (np : nat) (v : Z) : list Z :=
  match np with
  | O => []
  | S np => v mod 2 ^ pw :: get_parts pw np (v / 2 ^ pw)
  end.
Fixpoint parts_value (pw : Z) (parts : list Z) : Z :=
  match parts with
  | [] => 0
  | p :: rest => p + 2 ^ pw * parts_value pw rest
  end.
Definition from_parts (pw : Z) (np : nat) (sg : bool) (parts : list Z) : Z :=
  let v := parts_value pw parts in
  if sg && (2 ^ (Z.of_nat np * pw - 1) <=? v) then v - 2 ^ (Z.of_nat np * pw) else v.

(* add: random.hpp:223-234 *)
Fixpoint add_parts (pw : Z) (a b : list Z) (carry : bool) : list Z :=
  match a, b with
  | part_1 :: a, y :: b =>
      let part_2 := (part_1 + y) mod 2 ^ pw in
      let part_3 := (part_2 + (if carry then 1 else 0)) mod 2 ^ pw in
      part_3 :: add_parts pw a b ((part_2 <? part_1) || (part_3 <? part_2))
  | _, _ => []
  end.

(* sub: random.hpp:235-246 *)
Fixpoint sub_parts (pw : Z) (a b : list Z) (carry : bool) : list Z :=
  match a, b with
  | part_1 :: a, y :: b =>
      let part_2 := (part_1 - y) mod 2 ^ pw in
      let part_3 := (part_2 - (if carry then 1 else 0)) mod 2 ^ pw in
      part_3 :: sub_parts pw a b ((part_1 <? part_2) || (part_2 <? part_3))
  | _, _ => []
  end.

(* find_msb_pos: random.hpp:247-255.  The argument is the array in reverse order, so that the
   remaining number of elements is j. *)
Fixpoint find_msb_rev (pw : Z) (ra : list Z) : option Z :=
  match ra with
  | [] => Some (-1)
  | part :: rest =>
      if negb (part =? 0) then
        let? pos := int_find_msb_pos (ITy pw false) part in
        Some (Z.of_nat (length rest) * pw + pos)
      else find_msb_rev pw rest
  end.
Definition find_msb (pw : Z) (a : list Z) : option Z := find_msb_rev pw (rev a).

(* less: random.hpp:256-264, arrays in reverse order *)
Fixpoint less_rev (ra rb : list Z) : bool :=
  match ra, rb with
  | x :: ra, y :: rb => if x =? y then less_rev ra rb else x <? y
  | _, _ => false
  end.
Definition less_parts (a b : list Z) : bool := less_rev (rev a) (rev b).

(* random.hpp:273-274: parts i, i + 1, ..., i + count - 1 *)
Fixpoint draw_full (count i : nat) (parts draws : list Z) : option (list Z * list Z) :=
  match count with
  | O => Some (parts, draws)
  | S count =>
      match draws with
      | [] => None
      | x :: draws => let? parts := set_nth parts i x in draw_full count (S i) parts draws
      end
  end.

(* random.hpp:272-280.  At most fuel iterations. *)
Fixpoint draw_loop (fuel : nat) (nfull : nat) (extra : Z) (diff parts draws : list Z) : option (list Z) :=
  match fuel with
  | O => None
  | S fuel =>
      let? st := draw_full nfull 0 parts draws in
      let (parts, draws) := st : list Z * list Z in
      let? st :=
        if 0 <? extra then
          match draws with
          | [] => None
          | x :: draws => let? parts := set_nth parts nfull x in Some (parts, draws)
          end
        else Some (parts, draws) in
      let (parts, draws) := st : list Z * list Z in
      if negb (less_parts diff parts) then Some parts
      else draw_loop fuel nfull extra diff parts draws
  end.

(* rand_int: random.hpp:265-281 *)
Definition rand_int (pw : Z) (np : nat) (sg : bool) (min max : Z) (fuel : nat) (draws : list Z) : option Z :=
  let min_2 := get_parts pw np min in
  let max_2 := get_parts pw np max in
  let diff := sub_parts pw max_2 min_2 false in
  let? pos := find_msb pw diff in
  let num_bits := 1 + pos in
  let num_full_parts := Z.quot num_bits pw in
  let num_extra_bits := Z.rem num_bits pw in
  let? parts := draw_loop fuel (Z.to_nat num_full_parts) num_extra_bits diff (repeat 0 np) draws in
  Some (from_parts pw np sg (add_parts pw min_2 parts false)).

(* get_num_seed_words: random.hpp:409-417.  W is the width of std::size_t; None is overflow. *)
Definition mul_sz (W a b : Z) : option Z := if a * b <? 2 ^ W then Some (a * b) else None.
Definition add_sz (W a b : Z) : option Z := if a + b <? 2 ^ W then Some (a + b) else None.
Definition get_num_seed_words (W num_state_words state_word_size : Z) : option Z :=
  let? n := mul_sz W num_state_words state_word_size in
  let? n := add_sz W n (32 - 1) in
  Some (n / 32).

(* get_num_input_words: random.hpp:419-443.  iw is the width of the input word type. *)
Definition get_num_input_words (W iw num_seed_words : Z) : option Z :=
  let? n := mul_sz W num_seed_words 32 in
  let? n := add_sz W n (iw - 1) in
  let n := n / iw in
  add_sz W n 3.
