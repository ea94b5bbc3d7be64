(* Newlines of Windows (src/archon/core/newline_codec.hpp:32-118). *)
From Coq Require Import List Arith.
Import ListNotations.

(* How bytes are read: each character that is read, and the number of bytes it takes up.  A
   newline takes up two bytes if it is written as CR and LF. *)
Inductive reads : list nat -> list (nat * nat) -> Prop :=
| reads_end : reads [] []
| reads_newline : forall s cs, reads s cs -> reads (13 :: 10 :: s) ((10, 2) :: cs)
| reads_other : forall x s cs, ~ (x = 13 /\ exists r, s = 10 :: r) -> reads s cs -> reads (x :: s) ((x, 1) :: cs).

(* The number of bytes that the characters take up *)
Definition extent (cs : list (nat * nat)) : nat := fold_right (fun c n => snd c + n) 0 cs.

(* How characters are written: a newline is written as CR and LF *)
Definition written (s : list nat) : list nat := flat_map (fun x => if x =? 10 then [13; 10] else [x]) s.

(* The number of characters up to and including the last newline that takes up two bytes *)
Definition last_pair (cs : list (nat * nat)) (n : nat) : Prop :=
  (exists a b, cs = a ++ (10, 2) :: b /\ n = length a + 1 /\ ~ In (10, 2) b).
