(* Model of core/unicode.hpp: incremental, strict and lenient conversion between sequences
   of code points, UTF-8 and UTF-16 (C17-C22, C46).

   A code unit is the value of to_int_type() of the character, and is assumed not to be
   negative (as for the standard character traits).  Characters are converted to int_type
   and back without loss in the ranges that the static assertions require.  promote() and
   the arithmetic types have at least 32 bits, so the arithmetic, which is on values below
   2^21 wherever a result is used, does not overflow.  The memory of a Buffer and Span is
   a list (see BufferModel.v). *)
From Coq Require Import ZArith List Bool Arith.
From Verif Require Import ArrLib BufferModel.
Import ListNotations.
Open Scope nat_scope.

(* What one iteration of the loop of a conversion function does: produce units and
   consume input, or stop since the output is exhausted, due to an error, or since the
   input is exhausted. *)
Inductive action := Put (units : list Z) (used : nat) | Full | Bad | End.

Section Steps.
Open Scope Z_scope.

(* encode_utf8_incr: unicode.hpp:1823-1890 *)
Definition encode_utf8_step (inp : list Z) (room : nat) : action :=
  match inp with
  | v :: _ =>
    if v <? 0x80 then
      if (1 <=? room)%nat then Put [v] 1 else Full
    else if v <? 0x800 then
      if (2 <=? room)%nat then Put [0xC0 + v / 0x40; 0x80 + v mod 0x40] 1 else Full
    else if v <? 0xFFFE then
      if (v <? 0xD800) || (0xE000 <=? v) then
        if (3 <=? room)%nat then
          Put [0xE0 + v / 0x1000; 0x80 + (v / 0x40) mod 0x40; 0x80 + v mod 0x40] 1
        else Full
      else Bad
    else if 0x10000 <=? v then
      if v <? 0x110000 then
        if (4 <=? room)%nat then
          Put [0xF0 + v / 0x40000; 0x80 + (v / 0x1000) mod 0x40; 0x80 + (v / 0x40) mod 0x40; 0x80 + v mod 0x40] 1
        else Full
      else Bad
    else Bad
  | [] => End
  end.

Definition continuation (v : Z) : bool := Z.land v 0xC0 =? 0x80.

(* The decoding of a UTF-8 sequence of 2, 3 and 4 bytes, which is the same in
   decode_utf8_incr (1956, 1983, 2019) and in utf8_to_utf16_incr (2295, 2322, 2358) *)
Definition utf8_value2 (v_1 v_2 : Z) : Z :=
  Z.lor (Z.shiftl (Z.land v_1 0x1F) 6) (Z.land v_2 0x3F).
Definition utf8_value3 (v_1 v_2 v_3 : Z) : Z :=
  Z.lor (Z.lor (Z.shiftl (Z.land v_1 0x0F) 12) (Z.shiftl (Z.land v_2 0x3F) 6)) (Z.land v_3 0x3F).
Definition utf8_value4 (v_1 v_2 v_3 v_4 : Z) : Z :=
  Z.lor (Z.lor (Z.lor (Z.shiftl (Z.land v_1 0x07) 18) (Z.shiftl (Z.land v_2 0x3F) 12))
               (Z.shiftl (Z.land v_3 0x3F) 6)) (Z.land v_4 0x3F).

(* decode_utf8_incr: unicode.hpp:1934-2057.  reduced is reduced_range (1910): the output
   character type has less than 21 bits. *)
Definition decode_utf8_step (reduced : bool) (inp : list Z) (room : nat) : action :=
  match inp with
  | v_1 :: inp_1 =>
    if v_1 <? 0x80 then
      if (1 <=? room)%nat then Put [v_1] 1 else Full
    else if 0xC0 <=? v_1 then
      if v_1 <? 0xE0 then
        match inp_1 with
        | v_2 :: _ =>
          if continuation v_2 then
            let v := utf8_value2 v_1 v_2 in
            if 0x80 <=? v then
              if (1 <=? room)%nat then Put [v] 2 else Full
            else Bad
          else Bad
        | [] => End
        end
      else if v_1 <? 0xF0 then
        match inp_1 with
        | v_2 :: v_3 :: _ =>
          if continuation v_2 && continuation v_3 then
            let v := utf8_value3 v_1 v_2 v_3 in
            if 0x800 <=? v then
              if (v <? 0xD800) || (0xE000 <=? v) then
                if v <? 0xFFFE then
                  if (1 <=? room)%nat then Put [v] 3 else Full
                else Bad
              else Bad
            else Bad
          else Bad
        | _ => End
        end
      else if v_1 <? 0xF8 then
        match inp_1 with
        | v_2 :: v_3 :: v_4 :: _ =>
          if continuation v_2 && continuation v_3 && continuation v_4 then
            let v := utf8_value4 v_1 v_2 v_3 v_4 in
            if 0x10000 <=? v then
              if v <? 0x110000 then
                if negb reduced then
                  if (1 <=? room)%nat then Put [v] 4 else Full
                else Bad
              else Bad
            else Bad
          else Bad
        | _ => End
        end
      else Bad
    else Bad
  | [] => End
  end.

(* encode_utf16_incr: unicode.hpp:2095-2134 *)
Definition encode_utf16_step (inp : list Z) (room : nat) : action :=
  match inp with
  | v :: _ =>
    if v <? 0xFFFE then
      if (v <? 0xD800) || (0xE000 <=? v) then
        if (1 <=? room)%nat then Put [v] 1 else Full
      else Bad
    else if 0x10000 <=? v then
      if v <? 0x110000 then
        if (2 <=? room)%nat then
          let v := v - 0x10000 in
          Put [0xD800 + v / 0x400; 0xDC00 + v mod 0x400] 1
        else Full
      else Bad
    else Bad
  | [] => End
  end.

(* 2203, 2485 *)
Definition utf16_value (v_1 v_2 : Z) : Z :=
  0x10000 + Z.lor (Z.shiftl (v_1 - 0xD800) 10) (v_2 - 0xDC00).

(* decode_utf16_incr: unicode.hpp:2178-2232 *)
Definition decode_utf16_step (reduced : bool) (inp : list Z) (room : nat) : action :=
  match inp with
  | v_1 :: inp_1 =>
    if v_1 <? 0x10000 then
      if (v_1 <? 0xD800) || (0xE000 <=? v_1) then
        if v_1 <? 0xFFFE then
          if (1 <=? room)%nat then Put [v_1] 1 else Full
        else Bad
      else if v_1 <? 0xDC00 then
        match inp_1 with
        | v_2 :: _ =>
          if (0xDC00 <=? v_2) && (v_2 <? 0xE000) then
            let v := utf16_value v_1 v_2 in
            if negb reduced then
              if (1 <=? room)%nat then Put [v] 2 else Full
            else Bad
          else Bad
        | [] => End
        end
      else Bad
    else Bad
  | [] => End
  end.

(* utf8_to_utf16_incr: unicode.hpp:2273-2392 *)
Definition utf8_to_utf16_step (inp : list Z) (room : nat) : action :=
  match inp with
  | v_1 :: inp_1 =>
    if v_1 <? 0x80 then
      if (1 <=? room)%nat then Put [v_1] 1 else Full
    else if 0xC0 <=? v_1 then
      if v_1 <? 0xE0 then
        match inp_1 with
        | v_2 :: _ =>
          if continuation v_2 then
            let v := utf8_value2 v_1 v_2 in
            if 0x80 <=? v then
              if (1 <=? room)%nat then Put [v] 2 else Full
            else Bad
          else Bad
        | [] => End
        end
      else if v_1 <? 0xF0 then
        match inp_1 with
        | v_2 :: v_3 :: _ =>
          if continuation v_2 && continuation v_3 then
            let v := utf8_value3 v_1 v_2 v_3 in
            if 0x800 <=? v then
              if (v <? 0xD800) || (0xE000 <=? v) then
                if v <? 0xFFFE then
                  if (1 <=? room)%nat then Put [v] 3 else Full
                else Bad
              else Bad
            else Bad
          else Bad
        | _ => End
        end
      else if v_1 <? 0xF8 then
        match inp_1 with
        | v_2 :: v_3 :: v_4 :: _ =>
          if continuation v_2 && continuation v_3 && continuation v_4 then
            let v := utf8_value4 v_1 v_2 v_3 v_4 in
            if 0x10000 <=? v then
              if v <? 0x110000 then
                if (2 <=? room)%nat then
                  let v := v - 0x10000 in
                  Put [0xD800 + v / 0x400; 0xDC00 + v mod 0x400] 4
                else Full
              else Bad
            else Bad
          else Bad
        | _ => End
        end
      else Bad
    else Bad
  | [] => End
  end.

(* utf16_to_utf8_incr: unicode.hpp:2433-2511 *)
Definition utf16_to_utf8_step (inp : list Z) (room : nat) : action :=
  match inp with
  | v_1 :: inp_1 =>
    if v_1 <? 0x80 then
      if (1 <=? room)%nat then Put [v_1] 1 else Full
    else if v_1 <? 0x800 then
      if (2 <=? room)%nat then Put [0xC0 + v_1 / 0x40; 0x80 + v_1 mod 0x40] 1 else Full
    else if v_1 <? 0x10000 then
      if (v_1 <? 0xD800) || (0xE000 <=? v_1) then
        if v_1 <? 0xFFFE then
          if (3 <=? room)%nat then
            Put [0xE0 + v_1 / 0x1000; 0x80 + (v_1 / 0x40) mod 0x40; 0x80 + v_1 mod 0x40] 1
          else Full
        else Bad
      else if v_1 <? 0xDC00 then
        match inp_1 with
        | v_2 :: _ =>
          if (0xDC00 <=? v_2) && (v_2 <? 0xE000) then
            let v := utf16_value v_1 v_2 in
            if (4 <=? room)%nat then
              Put [0xF0 + v / 0x40000; 0x80 + (v / 0x1000) mod 0x40; 0x80 + (v / 0x40) mod 0x40; 0x80 + v mod 0x40] 2
            else Full
          else Bad
        | [] => End
        end
      else Bad
    else Bad
  | [] => End
  end.

(* resync_utf8, resync_utf16: unicode.hpp:2518-2575.  The result is the number of units
   skipped. *)
Fixpoint resync_utf8 (inp : list Z) : nat :=
  match inp with
  | v :: inp => if (v <? 0x80) || (0xC0 <=? v) && (v <? 0xF8) then 0%nat else S (resync_utf8 inp)
  | [] => 0%nat
  end.
Fixpoint resync_utf16 (inp : list Z) : nat :=
  match inp with
  | v :: inp => if (v <? 0xDC00) || (0xE000 <=? v) then 0%nat else S (resync_utf16 inp)
  | [] => 0%nat
  end.
End Steps.

Section Conversion.
Context (step : list Z -> nat -> action).

(* The loop of a conversion function.  The result is the remaining input, the output,
   in_exhausted and error.  None is an access outside of the input or the output, or too
   many iterations. *)
Fixpoint run (fuel : nat) (inp : list Z) (room : nat) : option (list Z * list Z * bool * bool) :=
  match fuel with
  | O => None
  | S fuel =>
    match step inp room with
    | Put units used =>
      if (length units <=? room) && (used <=? length inp) then
        let? (rest, out, exhausted, error) := run fuel (skipn used inp) (room - length units) in
        Some (rest, units ++ out, exhausted, error)
      else None
    | Full => Some (inp, [], false, false)
    | Bad => Some (inp, [], false, true)
    | End => Some (inp, [], true, false)
    end
  end.

(* The conversion functions ending in _incr: for example unicode.hpp:1793-1894.  The
   result is the new contents of the output span, the new offsets, in_exhausted and error,
   where the flags are given as false. *)
Definition incr (inp : list Z) (out : list Z) (in_offset out_offset : nat) : option (list Z * nat * nat * bool * bool) :=
  if (in_offset <=? length inp) && (out_offset <=? length out) then
    let? (rest, units, exhausted, error) :=
      run (length inp + 1) (skipn in_offset inp) (length out - out_offset) in
    Some (firstn out_offset out ++ units ++ skipn (out_offset + length units) out,
          length inp - length rest, out_offset + length units, exhausted, error)
  else None.

Context (W : Z).

Notation state := (list Z * nat * nat)%type.  (* buffer, string_offset, buffer_offset *)

(* The conversion functions ending in _a: unicode.hpp:1401-1419, 1458-1473, 1511-1529,
   1568-1583, 1622-1637, 1678-1693.  checked says whether the position in the string is
   checked by assertions.  Iterations are counted; 4 |string| + 1 is enough. *)
Fixpoint conv_a_loop (checked : bool) (fuel : nat) (string : list Z) (s : state) : outcome state :=
  match fuel with
  | O => UB
  | S fuel =>
    let '(buffer, string_offset, buffer_offset) := s in
    match incr string buffer string_offset buffer_offset with
    | None => UB
    | Some (buffer, string_offset, buffer_offset, exhausted, error) =>
      let s := (buffer, string_offset, buffer_offset) in
      if exhausted : bool then
        if negb checked || (string_offset =? length string) then Done s else UB
      else if checked && negb (string_offset <? length string) then UB
      else if negb error then
        match expand_a W 0%Z buffer tt 1%Z (Z.of_nat buffer_offset) (size_max W) with
        | Done (buffer, _) => conv_a_loop checked fuel string (buffer, string_offset, buffer_offset)
        | Throw _ => Throw s
        | UB => UB
        end
      else Done s
    end
  end.
Definition conv_a (checked : bool) (string : list Z) (s : state) : outcome state :=
  conv_a_loop checked (4 * length string + 1) string s.

(* The functions beginning with try_: unicode.hpp:1697-1789.  The result is the buffer,
   buffer_offset and the return value (false if an exception is thrown). *)
Definition try_conv (checked : bool) (string buffer : list Z) (buffer_offset : nat) : outcome (list Z * nat * bool) :=
  match conv_a checked string (buffer, 0, buffer_offset) with
  | Done (buffer, string_offset, buffer_offset_2) =>
    if string_offset =? length string then Done (buffer, buffer_offset_2, true)
    else if string_offset <? length string then Done (buffer, buffer_offset, false)
    else UB
  | Throw (buffer, _, _) => Throw (buffer, buffer_offset, false)
  | UB => UB
  end.

(* The functions ending in _l: unicode.hpp:1375-1397, 1433-1454, 1487-1507, 1543-1564,
   1597-1618, 1651-1674.  resync is 0 units where there is no call of a resynchronization
   function.  The result is the buffer and buffer_offset. *)
Fixpoint conv_l_loop (checked : bool) (resync : list Z -> nat) (replacement : list Z) (fuel : nat)
    (string buffer : list Z) (string_offset buffer_offset buffer_offset_2 : nat) : outcome (list Z * nat) :=
  match fuel with
  | O => UB
  | S fuel =>
    match conv_a checked string (buffer, string_offset, buffer_offset_2) with
    | Done (buffer, string_offset, buffer_offset_2) =>
      if string_offset =? length string then Done (buffer, buffer_offset_2)
      else if negb (string_offset <? length string) then UB
      else
        let string_offset := string_offset + 1 in
        let string_offset := string_offset + resync (skipn string_offset string) in
        match append W 0%Z buffer replacement (Z.of_nat buffer_offset) with
        | Done (buffer, offset) =>
          conv_l_loop checked resync replacement fuel string buffer string_offset (Z.to_nat offset) buffer_offset_2
        | Throw (buffer, offset) => Throw (buffer, Z.to_nat offset)
        | UB => UB
        end
    | Throw (buffer, _, _) => Throw (buffer, buffer_offset)
    | UB => UB
    end
  end.
Definition conv_l (checked : bool) (resync : list Z -> nat) (replacement string buffer : list Z) (buffer_offset : nat) : outcome (list Z * nat) :=
  conv_l_loop checked resync replacement (length string + 1) string buffer 0 buffer_offset buffer_offset.
End Conversion.

(* The functions *)
Definition encode_utf8_incr := incr encode_utf8_step.
Definition decode_utf8_incr reduced := incr (decode_utf8_step reduced).
Definition encode_utf16_incr := incr encode_utf16_step.
Definition decode_utf16_incr reduced := incr (decode_utf16_step reduced).
Definition utf8_to_utf16_incr := incr utf8_to_utf16_step.
Definition utf16_to_utf8_incr := incr utf16_to_utf8_step.

Definition try_encode_utf8 W := try_conv encode_utf8_step W true.                   (* 1697, 1401 *)
Definition try_decode_utf8 reduced W := try_conv (decode_utf8_step reduced) W false. (* 1713, 1458 *)
Definition try_encode_utf16 W := try_conv encode_utf16_step W true.                 (* 1729, 1511 *)
Definition try_decode_utf16 reduced W := try_conv (decode_utf16_step reduced) W false. (* 1745, 1568 *)
Definition try_utf8_to_utf16 W := try_conv utf8_to_utf16_step W false.              (* 1761, 1622 *)
Definition try_utf16_to_utf8 W := try_conv utf16_to_utf8_step W false.              (* 1777, 1678 *)

Definition no_resync (inp : list Z) : nat := 0.
Definition encode_utf8_l W := conv_l encode_utf8_step W true no_resync [0xEF; 0xBF; 0xBD]%Z.    (* 1375 *)
Definition decode_utf8_l reduced W := conv_l (decode_utf8_step reduced) W false resync_utf8 [0xFFFD]%Z. (* 1433 *)
Definition encode_utf16_l W := conv_l encode_utf16_step W true no_resync [0xFFFD]%Z.            (* 1487 *)
Definition decode_utf16_l reduced W := conv_l (decode_utf16_step reduced) W false resync_utf16 [0xFFFD]%Z. (* 1543 *)
Definition utf8_to_utf16_l W := conv_l utf8_to_utf16_step W false resync_utf8 [0xFFFD]%Z.       (* 1597 *)
Definition utf16_to_utf8_l W := conv_l utf16_to_utf8_step W false resync_utf16 [0xEF; 0xBF; 0xBD]%Z. (* 1651 *)
