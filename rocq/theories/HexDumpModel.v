(* Model of hex dumps: core/hex_dump.hpp. *)
From Coq Require Import ZArith Bool List.
From Verif Require Import CInt IntModel IntTextModel ArrLib.
Import ListNotations.
Open Scope Z_scope.

Section CharType.
Context {C : Type}.
(* BasicCharMapper::widen() *)
Context (widen : Z -> C).

(* the part of do_hex_dump() before the dump starts: hex_dump.hpp:112-118.  The result is the
   unsigned type, the mask and the least number of digits.  int_width<I>() is the width of I. *)
Definition uint_type (I : ity) : ity := unsigned_type (strongly_promoted_type I).

Definition dump_params (I : ity) (config_min_digits : Z) : option (Z * Z) :=
  let? mask := int_mask (uint_type I) (iwidth I) in
  let? min_digits :=
    (if config_min_digits <=? 0 then int_num_digits (uint_type I) mask 16 else Some config_min_digits) in
  Some (mask, min_digits).

(* format(): hex_dump.hpp:125-128, with format_hex(): integer_formatter.hpp:274-277.  The
   formatter is used with its default, upper-case digits. *)
Definition format_elem (I : ity) (mask min_digits value : Z) : option (list C) :=
  let v := cand (uint_type I, int_cast_a (uint_type I) value) (uint_type I, mask) in
  let? r := format_a widen (fst v) false (snd v) 16 min_digits in
  r.

(* size_t of width W *)
Context (W : Z).
Definition size_type : ity := ITy W false.
Definition size_of (s : list C) : Z := Z.of_nat (length s).
Definition size_sub (a b : Z) : Z := wrap size_type (a - b).

Definition ellipsis_size : Z := 3.

(* the code at label ellipsis: hex_dump.hpp:184-191 *)
Definition ellipsis : list C := repeat (widen 46) 3.

Section Loops.
Context (format : Z -> option (list C)) (separator : list C).

(* the code at label unlimited_1 with str: hex_dump.hpp:193-202; rest is the data after the element, that
   str is made of.  Each function gives the characters that are written from there on. *)
Fixpoint unlimited_1 (str : list C) (rest : list Z) : option (list C) :=
  match rest with
  | [] => Some str
  | x :: rest =>
    let? str_2 := format x in
    let? out := unlimited_1 str_2 rest in
    Some (str ++ separator ++ out)
  end.

(* the code at label look_ahead: hex_dump.hpp:167-178.  true when the end of data is reached, and false
   for a jump to ellipsis *)
Fixpoint look_ahead (size max_size : Z) (rest : list Z) : option bool :=
  if size >? max_size then Some false
  else
    let max_size := size_sub max_size size in
    match rest with
    | [] => Some true
    | x :: rest =>
      let? str := format x in
      let? added := try_int_add size_type size_type (size_of separator) (size_of str) in
      if fst added then look_ahead (snd added) max_size rest else Some false
    end.

(* the code at label next for the nonempty data x :: rest: hex_dump.hpp:149-165.  After a successful look-ahead
   (179-182), the dump continues at unlimited_2 from the element x, which is not the first one. *)
Fixpoint next (max_size : Z) (x : Z) (rest : list Z) : option (list C) :=
  let? str := format x in
  let? added := try_int_add size_type size_type (size_of separator) (size_of str) in
  if fst added then
    let size := snd added in
    if size <=? size_sub max_size ellipsis_size then
      match rest with
      | [] => Some (separator ++ str)
      | y :: rest_2 =>
        let? out := next (size_sub max_size size) y rest_2 in
        Some (separator ++ str ++ out)
      end
    else
      let? fits := look_ahead size max_size rest in
      if fits then
        let? str_2 := format x in
        let? out := unlimited_1 str_2 rest in
        Some (separator ++ out)
      else Some ellipsis
  else Some ellipsis.

(* do_hex_dump() from 120 on: hex_dump.hpp:120-147.  Result: what is written to the stream. *)
Definition dump_elems (config_max_size : Z) (data : list Z) : option (list C) :=
  match data with
  | [] => Some []
  | x :: rest =>
    let? str := format x in
    if negb (config_max_size =? wrap size_type (-1)) then
      let max_size := Z.max config_max_size ellipsis_size in
      let size := size_of str in
      if size <=? size_sub max_size ellipsis_size then
        match rest with
        | [] => Some str
        | y :: rest_2 =>
          let? out := next (size_sub max_size size) y rest_2 in
          Some (str ++ out)
        end
      else
        let? fits := look_ahead size max_size rest in
        if fits then
          let? str_2 := format x in
          unlimited_1 str_2 rest
        else Some ellipsis
    else unlimited_1 str rest
  end.

End Loops.

(* do_hex_dump: hex_dump.hpp:106-204 *)
Definition do_hex_dump (I : ity) (data : list Z) (separator : list C) (config_min_digits config_max_size : Z) :
    option (list C) :=
  let? (mask, min_digits) := dump_params I config_min_digits in
  dump_elems (format_elem I mask min_digits) separator config_max_size data.

(* hex_dump without separator, and the stream output operator for as_hex_dump() without separator: hex_dump.hpp:220-230,
   250-260.  The field width of the stream (BasicStreamOutputHelper) is not part of the model. *)
Definition hex_dump_spaced (I : ity) (data : list Z) (config_min_digits config_max_size : Z) : option (list C) :=
  do_hex_dump I data [widen 32] config_min_digits config_max_size.

End CharType.
