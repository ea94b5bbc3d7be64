(* Independent specification for rand_int(). *)
From Coq Require Import ZArith List.
Import ListNotations.
Open Scope Z_scope.

(* Number of bits needed for the values 0, ..., d *)
Definition bits_needed (d nb : Z) : Prop := 0 <= nb /\ d < 2 ^ nb /\ forall k, 0 <= k -> d < 2 ^ k -> nb <= k.

(* The draws of one iteration: uniformly distributed numbers of pw bits, and at last one of
   the remaining bits, if any *)
Definition draw_widths (pw nb : Z) : list Z :=
  repeat pw (Z.to_nat (nb / pw)) ++ (if nb mod pw =? 0 then [] else [nb mod pw]).
Definition valid_round (pw nb : Z) (r : list Z) : Prop :=
  Forall2 (fun w x => 0 <= x < 2 ^ w) (draw_widths pw nb) r.

(* The number made up of the draws *)
Definition round_number (pw : Z) (r : list Z) : Z :=
  fold_right (fun x acc => x + 2 ^ pw * acc) 0 r.

(* Range of numbers of np * pw bits *)
Definition fits (pw : Z) (np : nat) (sg : bool) (v : Z) : Prop :=
  let B := 2 ^ (Z.of_nat np * pw) in
  if sg then - B <= 2 * v < B else 0 <= v < B.

(* Least number of words of w bits that can hold n bits *)
Definition is_ceil_div (n w q : Z) : Prop := n <= q * w < n + w.
