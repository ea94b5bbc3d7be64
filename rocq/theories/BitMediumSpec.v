(* Independent specification of bit media and of the scaling of fractions of unity. *)
From Coq Require Import ZArith Bool.
From Verif Require Import CInt.
Open Scope Z_scope.

(* The packed form of the N-bit number v in a type T: the element of T that is
   congruent to v modulo 2^N and either v itself or, if T is signed and has no room
   for v, the negative number v - 2^N. *)
Definition packed_form (T : ity) (N v : Z) : Z :=
  if isigned T && (N =? iwidth T) && (2 ^ (N - 1) <=? v) then v - 2 ^ N else v.

(* Truncation of the exact real number (v / (2^n - 1)) * 2^m, except that the number
   one is mapped to 2^m - 1. *)
Definition unit_scale (n m v : Z) : Z :=
  if v =? 2 ^ n - 1 then 2 ^ m - 1 else (v * 2 ^ m) / (2 ^ n - 1).

(* bit i (counted from the top, 0 is the most significant) of an n-bit number *)
Definition top_bit (n v i : Z) : bool := Z.testbit v (n - 1 - i).

(* q is (a / b) * c rounded to nearest; ties go down *)
Definition nearest_down (a b c q : Z) : Prop := - b < 2 * (a * c - q * b) <= b.

(* q is (a / b) * c rounded to nearest, as by round(): ties go up *)
Definition nearest_up (a b c q : Z) : Prop := - b <= 2 * (a * c - q * b) < b.
