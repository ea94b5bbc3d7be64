(* Model of core/base64.cpp and core/base64.hpp in namespace archon::core::base64.

   Characters and bytes are the values of unsigned char, 0 to 255 (8-bit bytes are
   assumed, as in the static assertion on the lookup table; the conversions between char
   and unsigned char are the identity on these).  The character encoding is assumed to be
   ASCII-compatible.  None is a failed assertion or an access outside of an array. *)
From Coq Require Import ZArith List Bool Arith.
From Verif Require Import CInt IntModel BufferModel ArrLib.
Import ListNotations.
Open Scope nat_scope.

(* EncodeConfig, DecodeConfig: base64.hpp:47-63 *)
Record econfig := EConfig { e_url : bool; e_pad : bool; e_line : nat }.
Inductive padding := PadAllow | PadReject | PadRequire.
Record dconfig := DConfig { d_url : bool; d_padding : padding; d_space : bool }.

(* g_base64_chars, g_base64url_chars: base64.cpp:33-46 *)
Definition base64_chars : list Z := [
  65; 66; 67; 68; 69; 70; 71; 72; 73; 74; 75; 76; 77; 78; 79; 80;
  81; 82; 83; 84; 85; 86; 87; 88; 89; 90; 97; 98; 99; 100; 101; 102;
  103; 104; 105; 106; 107; 108; 109; 110; 111; 112; 113; 114; 115; 116; 117; 118;
  119; 120; 121; 122; 48; 49; 50; 51; 52; 53; 54; 55; 56; 57; 43; 47]%Z.
Definition base64url_chars : list Z := [
  65; 66; 67; 68; 69; 70; 71; 72; 73; 74; 75; 76; 77; 78; 79; 80;
  81; 82; 83; 84; 85; 86; 87; 88; 89; 90; 97; 98; 99; 100; 101; 102;
  103; 104; 105; 106; 107; 108; 109; 110; 111; 112; 113; 114; 115; 116; 117; 118;
  119; 120; 121; 122; 48; 49; 50; 51; 52; 53; 54; 55; 56; 57; 45; 95]%Z.

(* get_max_char: base64.cpp:49-66.  The largest of the characters is 'z'. *)
Definition max_char : nat := 122.

Definition set_all (l : list (nat * Z)) (t : option (list Z)) : option (list Z) :=
  fold_left (fun t e => let? t := t in set_nth t (fst e) (snd e)) l t.

(* get_lookup_table: base64.cpp:69-97 *)
Definition lookup_table : option (list Z) :=
  let table := repeat 66%Z (max_char + 1) in
  let chars := firstn 62 base64_chars in
  let table := set_all (combine (map Z.to_nat chars) (map Z.of_nat (seq 0 62))) (Some table) in
  set_all
    [(43, (128 + 62)%Z); (45, (192 + 62)%Z); (47, (128 + 63)%Z); (95, (192 + 63)%Z);
     (61, 64%Z); (32, 65%Z); (9, 65%Z); (10, 65%Z)] table.

(* decode_char: base64.cpp:100-109, 252 *)
Definition decode_char (ch : Z) : option Z :=
  let val := ch in
  if (val <=? Z.of_nat max_char)%Z then
    let? table := lookup_table in nth_error table (Z.to_nat val)
  else Some 66%Z.

(* for (int i = 0; i < n; ++i) batch |= int_type(hold[i]) << shift(i) *)
Fixpoint gather (hold : list Z) (shift : nat -> Z) (n i : nat) (batch : Z) : option Z :=
  match n with
  | O => Some batch
  | S n =>
    let? c := nth_error hold i in
    gather hold shift n (S i) (Z.lor batch (Z.shiftl c (shift i)))
  end.

(* for (int i = from; i < from + n; ++i) hold[base + i] = value(i) *)
Fixpoint scatter (hold : list Z) (base : nat) (value : nat -> option Z) (n i : nat) : option (list Z) :=
  match n with
  | O => Some hold
  | S n =>
    let? c := value i in
    let? hold := set_nth hold (base + i) c in
    scatter hold base value n (S i)
  end.

(* class IncrementalEncoder: base64.hpp:169-191.  The hold buffer has 4 elements;
   its initial contents are indeterminate, and represented by zeros. *)
Record enc := Enc { en_out : bool; en_size : nat; en_hold : list Z; en_line : nat }.
Definition enc_init : enc := Enc false 0 [0; 0; 0; 0]%Z 0.

Inductive elabel := EInput | EBatch | EOutput | EPartial | EFinalize.

(* The outcome of a call: return value, the new state, the input that was not consumed
   and the characters written to the output buffer. *)
Notation call_result S := (bool * S * list Z * list Z)%type.

Definition emit {S} (c : Z) (r : option (call_result S)) : option (call_result S) :=
  let? (b, st, data, out) := r in Some (b, st, data, c :: out).

(* IncrementalEncoder::encode: base64.cpp:259-375, from the given label.  room is the
   remaining size of the output buffer.  Steps are counted; 4 (|data| + room) + 3 is
   enough (encode_call_ok in Base64Proofs.v). *)
Fixpoint enc_loop (cfg : econfig) (fuel : nat) (lab : elabel) (st : enc) (data : list Z)
    (eoi : bool) (room : nat) : option (call_result enc) :=
  let chars := if e_url cfg then base64url_chars else base64_chars in
  match fuel with
  | O => None
  | S fuel =>
    let continue lab st data room := enc_loop cfg fuel lab st data eoi room in
    match lab with
    | EInput => (* 272-290 *)
      if en_out st then None
      else
        match data with
        | ch :: data' =>
          if (ch <=? 255)%Z then
            let i := en_size st in
            let? hold := set_nth (en_hold st) i ch in
            let st := Enc false (i + 1) hold (en_line st) in
            if en_size st <? 3 then continue EInput st data' room
            else continue EBatch st data' room
          else Some (false, st, data, [])
        | [] =>
          if negb eoi then Some (false, st, data, [])
          else if 0 <? en_size st then continue EPartial st data room
          else continue EFinalize st data room
        end
    | EBatch => (* 292-305 *)
      if en_out st || negb (en_size st =? 3) then None
      else
        let? batch := gather (en_hold st) (fun i => Z.of_nat ((2 - i) * 8)) 3 0 0%Z in
        let? hold := scatter (en_hold st) (4 - 4)
                       (fun i => nth_error chars (Z.to_nat (Z.land (Z.shiftr batch (Z.of_nat ((3 - i) * 6))) 63))) 4 0 in
        continue EOutput (Enc true 4 hold (en_line st)) data room
    | EOutput => (* 307-333 *)
      if negb (en_out st) then None
      else
        match room with
        | S room =>
          if (e_line cfg =? 0) || (en_line st <? e_line cfg) then
            if negb (0 <? en_size st) then None
            else
              let i := 4 - en_size st in
              let size := en_size st - 1 in
              let? c := nth_error (en_hold st) i in
              emit c
                (if e_line cfg =? 0 then
                   if 0 <? size then continue EOutput (Enc true size (en_hold st) (en_line st)) data room
                   else continue EInput (Enc false size (en_hold st) (en_line st)) data room
                 else
                   let line := en_line st + 1 in
                   if (0 <? size) || (line =? e_line cfg) then
                     continue EOutput (Enc true size (en_hold st) line) data room
                   else continue EInput (Enc false size (en_hold st) line) data room)
          else
            emit 10%Z
              (if 0 <? en_size st then continue EOutput (Enc true (en_size st) (en_hold st) 0) data room
               else continue EInput (Enc false (en_size st) (en_hold st) 0) data room)
        | O => Some (false, st, data, [])
        end
    | EPartial => (* 335-365 *)
      if en_out st || negb ((en_size st =? 1) || (en_size st =? 2)) then None
      else
        let? c0 := nth_error (en_hold st) 0 in
        let batch := Z.shiftl c0 (2 * 8) in
        let? r :=
          (if 1 <? en_size st then
             let? c1 := nth_error (en_hold st) 1 in
             Some (Z.lor batch (Z.shiftl c1 (1 * 8)), 3)
           else Some (batch, 2)) in
        let batch := fst r in
        let n := snd r in
        let value i := nth_error chars (Z.to_nat (Z.land (Z.shiftr batch (Z.of_nat ((3 - i) * 6))) 63)) in
        if negb (e_pad cfg) then
          let? hold := scatter (en_hold st) (4 - n) value n 0 in
          continue EOutput (Enc true n hold (en_line st)) data room
        else
          let? hold := scatter (en_hold st) (4 - 4) value n 0 in
          let? hold := scatter hold (4 - 4) (fun _ => Some 61%Z) (4 - n) n in
          continue EOutput (Enc true 4 hold (en_line st)) data room
    | EFinalize => (* 367-374 *)
      if (e_line cfg =? 0) || (en_line st =? 0) then Some (true, st, data, [])
      else
        match room with
        | S room => Some (true, st, data, [10%Z])
        | O => Some (false, st, data, [])
        end
    end
  end.

(* base64.cpp:262-270 *)
Definition encode_call (cfg : econfig) (st : enc) (data : list Z) (eoi : bool) (room : nat) : option (call_result enc) :=
  if negb (en_out st || (en_size st <? 3)) then None
  else enc_loop cfg (4 * (length data + room) + 3) (if en_out st then EOutput else EInput) st data eoi room.

(* encode(): base64.hpp:240-256.  The result is the encoded text, or whether the buffer
   space was insufficient. *)
Definition encode (cfg : econfig) (data : list Z) (room : nat) : option (list Z + bool) :=
  let? (done, _, _, out) := encode_call cfg enc_init data true room in
  Some (if done : bool then inl out else inr (length out =? room)).

(* class IncrementalDecoder: base64.hpp:196-210 *)
Record dec := Dec { de_out : bool; de_pad : nat; de_size : nat; de_hold : list Z }.
Definition dec_init : dec := Dec false 0 0 [0; 0; 0; 0]%Z.

(* valid_partial: base64.cpp:384-391 *)
Definition valid_partial (st : dec) : option bool :=
  if negb (de_size st <=? 3) then None
  else if 2 <? de_size st then
    let? c := nth_error (de_hold st) 2 in Some (Z.land c 3 =? 0)%Z
  else if 1 <? de_size st then
    let? c := nth_error (de_hold st) 1 in Some (Z.land c 15 =? 0)%Z
  else Some false.

Inductive dlabel := DInput | DBatch | DOutput | DPartial.

(* IncrementalDecoder::decode: base64.cpp:378-496, from the given label.  A padding
   character is not consumed (424-431). *)
Fixpoint dec_loop (cfg : dconfig) (fuel : nat) (lab : dlabel) (st : dec) (data : list Z)
    (eoi : bool) (room : nat) : option (call_result dec) :=
  match fuel with
  | O => None
  | S fuel =>
    let continue lab st data room := dec_loop cfg fuel lab st data eoi room in
    match lab with
    | DInput => (* 396-445 *)
      if de_out st then None
      else
        match data with
        | ch :: data' =>
          let? val := decode_char ch in
          let special := negb (Z.land val 128 =? 0)%Z in
          let discr := negb (Z.land val 64 =? 0)%Z in
          let is_regular := eqb (special && d_url cfg) discr in
          if is_regular then
            if de_pad st =? 0 then
              let i := de_size st in
              let? hold := set_nth (de_hold st) i (Z.land val 63) in
              let st := Dec false (de_pad st) (i + 1) hold in
              if de_size st <? 4 then continue DInput st data' room
              else continue DBatch st data' room
            else Some (false, st, data, [])
          else if (val =? 65)%Z then
            if d_space cfg then continue DInput st data' room
            else Some (false, st, data, [])
          else if (val =? 64)%Z then
            let allow_padding := match d_padding cfg with PadReject => false | _ => true end in
            let? ok := if allow_padding then valid_partial st else Some false in
            if ok : bool then
              let st := Dec false (de_pad st + 1) (de_size st) (de_hold st) in
              if de_size st + de_pad st <? 4 then continue DInput st data room
              else continue DPartial st data room
            else Some (false, st, data, [])
          else Some (false, st, data, [])
        | [] =>
          if negb eoi then Some (false, st, data, [])
          else if de_pad st =? 0 then
            let require_padding := match d_padding cfg with PadRequire => true | _ => false end in
            let? ok := if require_padding then Some false else valid_partial st in
            if ok : bool then continue DPartial st data room
            else if de_size st =? 0 then Some (true, st, data, [])
            else Some (false, st, data, [])
          else Some (false, st, data, [])
        end
    | DBatch => (* 447-462 *)
      if de_out st || negb (de_size st =? 4) then None
      else
        let? batch := gather (de_hold st) (fun i => Z.of_nat ((3 - i) * 6)) 4 0 0%Z in
        let? hold := scatter (de_hold st) (4 - 3)
                       (fun i => Some (Z.land (Z.shiftr batch (Z.of_nat ((2 - i) * 8))) 255)) 3 0 in
        continue DOutput (Dec true (de_pad st) 3 hold) data room
    | DOutput => (* 464-476 *)
      if negb (de_out st) || negb (0 <? de_size st) || negb (de_size st <=? 3) then None
      else
        match room with
        | S room =>
          let i := 4 - de_size st in
          let size := de_size st - 1 in
          let? c := nth_error (de_hold st) i in
          emit c
            (if 0 <? size then continue DOutput (Dec true (de_pad st) size (de_hold st)) data room
             else continue DInput (Dec false (de_pad st) size (de_hold st)) data room)
        | O => Some (false, st, data, [])
        end
    | DPartial => (* 478-495 *)
      let? ok := valid_partial st in
      if de_out st || negb ((de_size st =? 2) || (de_size st =? 3)) || negb ok then None
      else
        let? batch := gather (de_hold st) (fun i => Z.of_nat ((3 - i) * 6)) (de_size st) 0 0%Z in
        let n := de_size st - 1 in
        let? hold := scatter (de_hold st) (4 - n)
                       (fun i => Some (Z.land (Z.shiftr batch (Z.of_nat ((2 - i) * 8))) 255)) n 0 in
        continue DOutput (Dec true (de_pad st) n hold) data room
    end
  end.

(* base64.cpp:393-394 *)
Definition decode_call (cfg : dconfig) (st : dec) (data : list Z) (eoi : bool) (room : nat) : option (call_result dec) :=
  dec_loop cfg (9 * (length data + room) + 16) (if de_out st then DOutput else DInput) st data eoi room.

(* decode(): base64.hpp:277-293 *)
Definition decode (cfg : dconfig) (data : list Z) (room : nat) : option (list Z + bool) :=
  let? (done, _, _, out) := decode_call cfg dec_init data true room in
  Some (if done : bool then inl out else inr (length out =? room)).

(* encode_buffer_size: base64.hpp:415-436.  None is undefined behaviour, Some None the
   exception; size_t has W bits. *)
Definition encode_buffer_size (W data_size : Z) (cfg : econfig) : option (option Z) :=
  let size_t := ITy W false in
  let size := data_size in
  let extra := (size / 3)%Z in
  let rest := usize W (size - extra * 3) in
  let extra :=
    if (0 <? rest)%Z then
      let extra := usize W (extra + 1) in
      if e_pad cfg then usize W (extra + usize W (3 - rest)) else extra
    else extra in
  let? r := try_int_add size_t size_t size extra in
  if fst r then
    let size := snd r in
    if e_line cfg =? 0 then Some (Some size)
    else
      let line := Z.of_nat (e_line cfg) in
      let extra := (size / line)%Z in
      let rest := usize W (size - extra * line) in
      let extra := if (0 <? rest)%Z then usize W (extra + 1) else extra in
      let? r := try_int_add size_t size_t size extra in
      Some (if fst r then Some (snd r) else None)
  else Some None.

(* decode_buffer_size: base64.hpp:439-447.  All intermediate values are between 0 and
   data_size. *)
Definition decode_buffer_size (data_size : Z) : Z :=
  let extra := (data_size / 4)%Z in
  let rest := (data_size - extra * 4)%Z in
  let extra := if (0 <? rest)%Z then (extra + 1)%Z else extra in
  (data_size - extra)%Z.

(* BasicEncoder<char>::encode: base64.hpp:313-350, with the trivial character mapper (the
   other branch is not modelled; the condition tests the mapper for char whatever C is).
   room is the size of the buffer after the call of reserve() on line 315, so at least
   encode_buffer_size(), and the exception thrown by that function is not included here.
   None is a failed assertion.  Bytes have 8 bits, so the result of the call is not
   tested. *)
Definition basic_encode (cfg : econfig) (data : list Z) (room : nat) : option (list Z) :=
  let? r := encode cfg data room in
  match r with
  | inl out => Some out
  | inr insufficient => if insufficient : bool then None else Some []
  end.

(* BasicDecoder<char>::decode: base64.hpp:370-412, in the same way.  None is a failed
   assertion, Some None the exception. *)
Definition basic_decode (cfg : dconfig) (data : list Z) (room : nat) : option (option (list Z)) :=
  let? r := decode cfg data room in
  match r with
  | inl out => Some (Some out)
  | inr insufficient => if insufficient : bool then None else Some None
  end.
