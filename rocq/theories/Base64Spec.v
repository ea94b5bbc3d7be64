(* Base64 text as defined in RFC 4648, sections 4 and 5, and its division into lines;
   independent of the model of the implementation (C13 to C16). *)
From Coq Require Import ZArith List Bool.
Import ListNotations.
Open Scope Z_scope.

Definition is_byte (b : Z) : Prop := 0 <= b < 256.

(* The alphabet: A-Z, a-z, 0-9, and + / or - _ *)
Definition alphabet (url : bool) (v : Z) : Z :=
  if v <? 26 then 65 + v
  else if v <? 52 then 97 + (v - 26)
  else if v <? 62 then 48 + (v - 52)
  else if v =? 62 then (if url then 45 else 43)
  else (if url then 95 else 47).

(* The 6-bit groups of a byte sequence, followed by the number of padding characters that
   completes the last group of four *)
Fixpoint sextets (bytes : list Z) : list Z :=
  match bytes with
  | a :: b :: c :: rest => a / 4 :: (a mod 4) * 16 + b / 16 :: (b mod 16) * 4 + c / 64 :: c mod 64 :: sextets rest
  | [a; b] => [a / 4; (a mod 4) * 16 + b / 16; (b mod 16) * 4]
  | [a] => [a / 4; (a mod 4) * 16]
  | [] => []
  end.
Definition padding_size (bytes : list Z) : nat := ((3 - length bytes mod 3) mod 3)%nat.

Definition text (url pad : bool) (bytes : list Z) : list Z :=
  map (alphabet url) (sextets bytes) ++ (if pad then repeat 61 (padding_size bytes) else []).

(* Every L characters, and the last line, are followed by a newline; k characters are on
   the current line already. *)
Fixpoint lines_from (L k : nat) (cs : list Z) : list Z :=
  match cs with
  | [] => if (k =? 0)%nat then [] else [10]
  | c :: cs => c :: (if (k + 1 =? L)%nat then 10 :: lines_from L 0 cs else lines_from L (k + 1) cs)
  end.
Definition in_lines (L : nat) (cs : list Z) : list Z :=
  if (L =? 0)%nat then cs else lines_from L 0 cs.

(* What a decoder sees when it skips white space *)
Definition is_space (c : Z) : bool := (c =? 32) || (c =? 9) || (c =? 10).
Definition without_space (skip : bool) (cs : list Z) : list Z :=
  if skip then filter (fun c => negb (is_space c)) cs else cs.
