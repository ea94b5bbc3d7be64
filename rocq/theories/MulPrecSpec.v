(* What a multiple-precision integer represents (documentation at
   mul_prec_int.hpp:45-66: unsigned parts, least significant first, two's
   complement when signed).  Independent of the model. *)
From Coq Require Import ZArith List Bool.
From Verif Require Import CInt.
Import ListNotations.
Open Scope Z_scope.

(* the number whose digits in base b, least significant first, are l *)
Fixpoint val (b : Z) (l : list Z) : Z :=
  match l with [] => 0 | d :: l => d + b * val b l end.

Definition digits (b : Z) (l : list Z) : Prop := Forall (fun d => 0 <= d < b) l.

(* N parts, each a value of an unsigned type of width pw *)
Definition parts_ok (pw : Z) (N : nat) (x : list Z) : Prop :=
  length x = N /\ digits (2 ^ pw) x.

(* the unsigned type of width pw exists (and is not bool): the width of every
   such C++ type is even *)
Definition part_width_ok (pw : Z) : Prop := 0 < pw /\ Z.Even pw.

Definition uvalue (pw : Z) (x : list Z) : Z := val (2 ^ pw) x.

(* the represented value *)
Definition value (pw : Z) (sg : bool) (x : list Z) : Z :=
  let W := Z.of_nat (length x) * pw in
  if sg && (2 ^ (W - 1) <=? uvalue pw x) then uvalue pw x - 2 ^ W else uvalue pw x.

(* the integer type that MulPrecInt<T, N, S> imitates: N * pw bits, signed or not *)
Definition big_type (pw : Z) (N : nat) (sg : bool) : ity := ITy (Z.of_nat N * pw) sg.
