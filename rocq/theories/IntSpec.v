(* Specification vocabulary for the integer properties (C01-C08), independent
   of the model. *)
From Coq Require Import ZArith.
From Verif Require Import CInt.
Open Scope Z_scope.

(* v is representable in a type of width w: two's complement or unsigned *)
Definition representable (t : ity) (v : Z) : Prop :=
  if isigned t then - 2 ^ (iwidth t - 1) <= v < 2 ^ (iwidth t - 1)
  else 0 <= v < 2 ^ iwidth t.

(* outcome of a checked operation whose mathematical result is x: either the
   result is representable and stored, or the old value is kept *)
Definition checked_outcome (t : ity) (old x : Z) (res : option (bool * Z)) : Prop :=
  (representable t x /\ res = Some (true, x)) \/
  (~ representable t x /\ res = Some (false, old)).

(* signed value of a w-bit two's complement bit pattern *)
Definition signed_value (w p : Z) : Z := if p <? 2 ^ (w - 1) then p else p - 2 ^ w.
