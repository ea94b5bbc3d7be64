(* Model of newline encoding and decoding (src/archon/core/newline_codec.cpp).

   Characters are natural numbers.  Offsets are natural numbers.  A buffer is the list of its
   slots.  None stands for a failed assertion. *)
From Coq Require Import List Arith Bool.
From Verif Require Import ArrLib.
Import ListNotations.

Definition CR : nat := 13.
Definition NL : nat := 10.

(* The loop of decode(): newline_codec.cpp:42-64.  The data that remains, whether it is the end of
   data, the position in the buffer (j), the size of the buffer, the offset for, and the value of
   clear (k).  The result is the number of bytes consumed, what is placed in the buffer, and the
   new value of clear. *)
Fixpoint decode_loop (data : list nat) (end_of_data : bool) (j size clear_offset k : nat) : nat * list nat * nat :=
  match data with
  | [] => (0, [], k)
  | ch :: data' =>
    if j <? size then
      let copy :=
        let '(n, out, k) := decode_loop data' end_of_data (S j) size clear_offset k in
        (S n, ch :: out, k) in
      if negb (ch =? CR) then copy else
      match data' with
      | ch_2 :: data'' =>
        if ch_2 =? NL then
          let '(n, out, k) := decode_loop data'' end_of_data (S j) size clear_offset (clear_offset + S j) in
          (S (S n), NL :: out, k)
        else copy
      | [] => if negb end_of_data then (0, [], k) else copy
      end
    else (0, [], k)
  end.

(* writing into a buffer from an offset on *)
Definition place (buffer : list nat) (offset : nat) (out : list nat) : list nat :=
  firstn offset buffer ++ out ++ skipn (offset + length out) buffer.

(* decode(): newline_codec.cpp:32-68.  The new data offset, buffer, buffer offset and clear *)
Definition decode (data : list nat) (data_offset : nat) (end_of_data : bool) (buffer : list nat) (buffer_offset clear_offset clear : nat) :
    option (nat * list nat * nat * nat) :=
  if (data_offset <=? length data) && (buffer_offset <=? length buffer) then
    let '(n, out, k) := decode_loop (skipn data_offset data) end_of_data buffer_offset (length buffer) clear_offset clear in
    Some (data_offset + n, place buffer buffer_offset out, buffer_offset + length out, k)
  else None.

(* The loop of encode(): newline_codec.cpp:80-94 *)
Fixpoint encode_loop (data : list nat) (j size : nat) : nat * list nat :=
  match data with
  | [] => (0, [])
  | ch :: data' =>
    if negb (ch =? NL) then
      if j =? size then (0, []) else
      let (n, out) := encode_loop data' (S j) size in (S n, ch :: out)
    else
      if size - j <? 2 then (0, []) else
      let (n, out) := encode_loop data' (S (S j)) size in (S n, CR :: NL :: out)
  end.

(* encode(): newline_codec.cpp:71-97.  The new data offset, buffer and buffer offset *)
Definition encode (data : list nat) (data_offset : nat) (buffer : list nat) (buffer_offset : nat) : option (nat * list nat * nat) :=
  if (data_offset <=? length data) && (buffer_offset <=? length buffer) then
    let (n, out) := encode_loop (skipn data_offset data) buffer_offset (length buffer) in
    Some (data_offset + n, place buffer buffer_offset out, buffer_offset + length out)
  else None.

(* The loop of simul_decode(): newline_codec.cpp:108-129.  The remaining data, and the number of
   characters that remain to be counted *)
Fixpoint simul_loop (data : list nat) (remain : nat) : option nat :=
  match remain with
  | 0 => Some 0
  | S remain' =>
    match data with
    | [] => None
    | ch :: data' =>
      let regular := option_map S (simul_loop data' remain') in
      if negb (ch =? CR) then regular else
      match data' with
      | ch_2 :: data'' => if ch_2 =? NL then option_map (fun n => S (S n)) (simul_loop data'' remain') else regular
      | [] => regular
      end
    end
  end.

(* simul_decode(): newline_codec.cpp:100-132.  Whether it succeeds, and the new data offset *)
Definition simul_decode (data : list nat) (data_offset buffer_size : nat) : option (bool * nat) :=
  if data_offset <=? length data then
    Some match simul_loop (skipn data_offset data) buffer_size with
         | Some n => (true, data_offset + n)
         | None => (false, data_offset)
         end
  else None.
