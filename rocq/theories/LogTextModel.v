(* Model of how root loggers write messages (log/logger.hpp, log/sink.hpp) *)
From Coq Require Import ZArith Bool List.
From Verif Require Import ArrLib.
Import ListNotations.

(* std::basic_string_view::find(c, pos), None for npos *)
Fixpoint find_from (newline : Z) (message : list Z) (pos i : nat) : option nat :=
  match message with
  | [] => None
  | c :: message =>
    if (pos <=? i)%nat && (c =? newline)%Z then Some i else find_from newline message pos (S i)
  end.
Definition find (newline : Z) (message : list Z) (pos : nat) : option nat := find_from newline message pos 0.

(* std::basic_string_view::substr(i, n) *)
Definition substr (message : list Z) (i n : nat) : list Z := firstn n (skipn i message).

(* the loop in sink_log(): logger.hpp:829-839.  The assembly buffer is a list, see C26 for how it grows.  None if fuel runs
   out, which does not happen with fuel of at least the size of the message. *)
Fixpoint assemble (newline : Z) (fuel : nat) (prefix message : list Z) (i j : nat) (buffer : list Z) : option (list Z) :=
  match fuel with
  | O => None
  | S fuel =>
    let j := S j in
    let buffer := buffer ++ prefix in
    let buffer := buffer ++ substr message i (j - i) in
    let i := j in
    match find newline message i with
    | Some j => assemble newline fuel prefix message i j buffer
    | None =>
      let buffer := buffer ++ prefix in
      let buffer := buffer ++ skipn i message in
      Some (buffer ++ [newline])
    end
  end.

(* sink_log: logger.hpp:805-843.  Argument prefix is what is formatted by lines 810-812: the prefix of the channel, the
   prefix of the message, and the level.  The result is what is passed to root_log(). *)
Definition sink_log (newline : Z) (prefix message : list Z) : option (list Z) :=
  match find newline message 0 with
  | None => Some (prefix ++ message ++ [newline])
  | Some j => assemble newline (length message) prefix message 0 j []
  end.
