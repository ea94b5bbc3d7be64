(* Properties of newline encoding and decoding (src/archon/core/newline_codec.cpp). *)
From Coq Require Import List Arith Bool Lia.
From Verif Require Import NewlineModel NewlineSpec NewlineProofs.
Import ListNotations.

(* ================= C101: newlines ================= *)

(* Any sequence of bytes can be read in one way. *)
Theorem reads_unique : forall s, exists cs, reads s cs /\ forall cs', reads s cs' -> cs' = cs.
Proof.
  intros s. destruct (reads_exists s) as (cs & R). exists cs. split; [assumption|].
  intros cs' R'. eapply reads_det; eassumption.
Qed.

(* What is placed in the buffer is the first characters of what remains, no matter what comes
   after the data, if it is not the end of data.  Decoding goes on until the buffer is full, or
   everything is consumed, or only a CR remains that may be followed by LF. *)
Theorem newline_decode_exact : forall data data_offset end_of_data buffer buffer_offset clear_offset clear,
  data_offset <= length data -> buffer_offset <= length buffer ->
  exists n out k,
    decode data data_offset end_of_data buffer buffer_offset clear_offset clear =
      Some (data_offset + n, firstn buffer_offset buffer ++ out ++ skipn (buffer_offset + length out) buffer, buffer_offset + length out, k) /\
    buffer_offset + length out <= length buffer /\ data_offset + n <= length data /\
    (forall more cs, (end_of_data = true -> more = []) -> reads (skipn data_offset data ++ more) cs ->
      let cs := firstn (length out) cs in
      out = map fst cs /\ n = extent cs /\
      (forall m, last_pair cs m -> k = clear_offset + (buffer_offset + m)) /\ (~ In (10, 2) cs -> k = clear)) /\
    (buffer_offset + length out = length buffer \/ data_offset + n = length data \/
     (end_of_data = false /\ skipn (data_offset + n) data = [13])).
Proof.
  intros data o eod buffer b co clear L1 L2. unfold decode.
  rewrite (proj2 (Nat.leb_le _ _) L1), (proj2 (Nat.leb_le _ _) L2). cbn [andb].
  pose proof (decode_loop_spec (skipn o data) eod b (length buffer) co clear) as D.
  destruct (decode_loop (skipn o data) eod b (length buffer) co clear) as [[n out] k].
  destruct D as (D1 & D2 & D3 & D4). rewrite skipn_length in D2, D4.
  exists n, out, k. split; [reflexivity|]. split; [lia|]. split; [lia|]. split.
  - intros more cs M R. destruct (D3 more cs M R) as (E1 & E2 & E3 & E4). cbn zeta. split; [assumption|]. split; [assumption|].
    split; [|assumption]. intros m P. rewrite (E3 m P). lia.
  - destruct D4 as [D4|[D4|[D4 D5]]]; [left; lia|right; left; lia|right; right]. split; [assumption|].
    rewrite Nat.add_comm, <- D5.
    clear. revert data. induction o as [|o IH]; intros data; [rewrite Nat.add_0_r; reflexivity|].
    destruct data as [|x data]; [rewrite !skipn_nil; reflexivity|]. rewrite Nat.add_succ_r. cbn. apply IH.
Qed.

(* Simulated decoding advances as far as decoding that stops after the given number of
   characters, if there are as many characters, and otherwise fails. *)
Theorem newline_simul_decode_exact : forall data data_offset buffer_size cs,
  data_offset <= length data -> reads (skipn data_offset data) cs ->
  simul_decode data data_offset buffer_size =
    Some (if buffer_size <=? length cs then (true, data_offset + extent (firstn buffer_size cs)) else (false, data_offset)).
Proof.
  intros data o m cs L R. unfold simul_decode. rewrite (proj2 (Nat.leb_le _ _) L), (simul_loop_spec _ _ R).
  destruct (m <=? length cs); reflexivity.
Qed.

(* What is placed in the buffer is the encoded form of the characters that are consumed.  Encoding
   goes on until everything is consumed or the next character does not fit. *)
Theorem newline_encode_exact : forall data data_offset buffer buffer_offset,
  data_offset <= length data -> buffer_offset <= length buffer ->
  exists n out,
    encode data data_offset buffer buffer_offset =
      Some (data_offset + n, firstn buffer_offset buffer ++ out ++ skipn (buffer_offset + length out) buffer, buffer_offset + length out) /\
    data_offset + n <= length data /\ out = written (firstn n (skipn data_offset data)) /\ buffer_offset + length out <= length buffer /\
    (data_offset + n = length data \/
     exists x s, skipn n (skipn data_offset data) = x :: s /\ length buffer < buffer_offset + length out + length (written [x])).
Proof.
  intros data o buffer b L1 L2. unfold encode. rewrite (proj2 (Nat.leb_le _ _) L1), (proj2 (Nat.leb_le _ _) L2). cbn [andb].
  pose proof (encode_loop_spec (skipn o data) b (length buffer) L2) as E.
  destruct (encode_loop (skipn o data) b (length buffer)) as [n out]. destruct E as (E1 & E2 & E3 & E4).
  rewrite skipn_length in E1, E4. exists n, out. split; [reflexivity|]. split; [lia|]. split; [assumption|]. split; [lia|].
  destruct E4 as [E4|E4]; [left; lia|right; assumption].
Qed.

(* What is written is read back, whatever it is. *)
Theorem newline_round_trip : forall s cs, reads (written s) cs -> map fst cs = s.
Proof. intros s cs R. destruct (written_reads s) as (cs' & R' & E). rewrite (reads_det _ _ R _ R'). assumption. Qed.

(* a CR LF b CR: decoded into a buffer of 5, and into one of 2; at the end of data, and not *)
Example newline_ex :
  decode [97; 13; 10; 98; 13] 0 false [0; 0; 0; 0; 0] 0 100 7 = Some (4, [97; 10; 98; 0; 0], 3, 102) /\
  decode [97; 13; 10; 98; 13] 0 true [0; 0; 0; 0; 0] 0 100 7 = Some (5, [97; 10; 98; 13; 0], 4, 102) /\
  decode [97; 13; 10; 98; 13] 3 true [0; 0; 0; 0; 0] 1 100 7 = Some (5, [0; 98; 13; 0; 0], 3, 7) /\
  decode [97; 13; 10; 98; 13] 0 true [0; 0] 0 100 7 = Some (3, [97; 10], 2, 102) /\
  reads [97; 13; 10; 98; 13] [(97, 1); (10, 2); (98, 1); (13, 1)] /\
  simul_decode [97; 13; 10; 98; 13] 0 2 = Some (true, 3) /\ simul_decode [97; 13; 10; 98; 13] 0 5 = Some (false, 0) /\
  encode [97; 10; 13; 10] 0 [0; 0; 0; 0; 0] 0 = Some (3, [97; 13; 10; 13; 0], 4).
Proof.
  repeat (split; [reflexivity|]). split; [|repeat split].
  apply reads_other; [intros [E _]; discriminate|]. apply reads_newline. apply reads_other; [intros [E _]; discriminate|].
  apply reads_other; [intros [_ [r E]]; discriminate|]. apply reads_end.
Qed.

Print Assumptions reads_unique.
Print Assumptions newline_decode_exact.
Print Assumptions newline_simul_decode_exact.
Print Assumptions newline_encode_exact.
Print Assumptions newline_round_trip.
