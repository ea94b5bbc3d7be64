(* Specification vocabulary for C39 and C43, independent of the model: numerals in
   positional notation. *)
From Coq Require Import ZArith List.
From Verif Require Import CInt IntSpec.
Import ListNotations.
Open Scope Z_scope.

(* character c (ASCII) is a digit of value d *)
Definition digit_char (c d : Z) : Prop :=
  (48 <= c <= 57 /\ d = c - 48) \/ (65 <= c <= 90 /\ d = c - 65 + 10) \/
  (97 <= c <= 122 /\ d = c - 97 + 10).

(* value of a digit string, most significant digit first *)
Fixpoint positional (radix : Z) (ds : list Z) : Z :=
  match ds with
  | [] => 0
  | d :: ds => d * radix ^ Z.of_nat (length ds) + positional radix ds
  end.

(* cs are digits of the radix, with values ds *)
Definition digit_string (radix : Z) (cs ds : list Z) : Prop :=
  Forall2 digit_char cs ds /\ Forall (fun d => d < radix) ds.

(* which signs a numeral may start with *)
Inductive sign_policy := AnySign | OnlyMinus | NoSign.

(* string s is a numeral of value v: an optional sign admitted by the policy and at
   least one digit *)
Definition numeral (pol : sign_policy) (radix : Z) (s : list Z) (v : Z) : Prop :=
  exists ds, ds <> [] /\
    ((digit_string radix s ds /\ v = positional radix ds) \/
     (exists cs, s = 43 :: cs /\ pol = AnySign /\ digit_string radix cs ds /\ v = positional radix ds) \/
     (exists cs, s = 45 :: cs /\ pol <> NoSign /\ digit_string radix cs ds /\ v = - positional radix ds)).

(* n is the number of digits of v without leading zeros (none for zero) *)
Definition digit_count (base v n : Z) : Prop :=
  (v = 0 /\ n = 0) \/ (0 < n /\ base ^ (n - 1) <= Z.abs v < base ^ n).
