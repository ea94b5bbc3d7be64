(* Independent specification for the bit copy functions. *)
From Coq Require Import ZArith Bool List.
Import ListNotations.
Open Scope Z_scope.

(* the number denoted by a little-endian sequence of w-bit parts *)
Fixpoint parts_value (w : Z) (l : list Z) : Z :=
  match l with
  | [] => 0
  | p :: l => p + 2 ^ w * parts_value w l
  end.

(* every part is a w-bit number *)
Definition parts_ok (w : Z) (l : list Z) : Prop := Forall (fun p => 0 <= p < 2 ^ w) l.

(* the number denoted by the n-bit pattern v: plain or two's complement *)
Definition pattern_value (signed : bool) (n v : Z) : Z :=
  if signed && (2 ^ (n - 1) <=? v) then v - 2 ^ n else v.
