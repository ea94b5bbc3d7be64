(* Floating-point formats, and what comparison and conversion between floating-point and integer values mean.  A finite
   value is represented by the integer n for which it is n * 2^-k. *)
From Coq Require Import ZArith.
Open Scope Z_scope.

Section Format.
Context (p k fmax : Z).

(* the finite values: integers of at most p bits times a power of two, within the limits of the format *)
Definition representable (n : Z) : Prop :=
  (exists m e, n = m * 2 ^ e /\ 0 <= e /\ - 2 ^ p < m < 2 ^ p) /\ - fmax <= n <= fmax.

(* the format: at least two bits, the values below one have at least the full precision, and the greatest value has only
   ones as bits *)
Definition good_format : Prop :=
  2 <= p <= k /\ exists e, p <= e /\ fmax = (2 ^ p - 1) * 2 ^ e.

(* nothing representable is strictly between a and b, in either direction *)
Definition adjacent (a b : Z) : Prop :=
  forall n, representable n -> ~ a < n < b /\ ~ b < n < a.

(* what the conversion of the integer i may result in: i if that is representable, otherwise one of the two neighbours *)
Definition converted (i n : Z) : Prop :=
  representable n /\ (representable (i * 2 ^ k) -> n = i * 2 ^ k) /\ adjacent n (i * 2 ^ k).

(* the greatest finite value that is not above the integer i, and the lowest one not below it *)
Definition greatest_not_above (n i : Z) : Prop :=
  representable n /\ n <= i * 2 ^ k /\ forall n', representable n' -> n' <= i * 2 ^ k -> n' <= n.

Definition lowest_not_below (n i : Z) : Prop :=
  representable n /\ i * 2 ^ k <= n /\ forall n', representable n' -> i * 2 ^ k <= n' -> n <= n'.

(* v is n * 2^-k rounded toward zero *)
Definition truncated (n v : Z) : Prop :=
  (0 <= n -> v * 2 ^ k <= n < (v + 1) * 2 ^ k) /\ (n <= 0 -> (v - 1) * 2 ^ k < n <= v * 2 ^ k).

(* the next finite value toward zero *)
Definition next_toward_zero (n n' : Z) : Prop :=
  representable n' /\
  (0 < n -> 0 <= n' < n /\ forall x, representable x -> x < n -> x <= n') /\
  (n < 0 -> n < n' <= 0 /\ forall x, representable x -> n < x -> n' <= x) /\
  (n = 0 -> n' = 0).

(* the integer i is strictly between n * 2^-k and the next finite value toward zero *)
Definition between (n i : Z) : Prop :=
  exists n', next_toward_zero n n' /\ (n < i * 2 ^ k < n' \/ n' < i * 2 ^ k < n).
End Format.
