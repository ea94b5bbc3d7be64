(* Specification vocabulary for SuperInt (C09, C10). *)
From Coq Require Import ZArith Bool.
From Verif Require Import CInt SuperIntModel.
Open Scope Z_scope.

(* class invariant and represented value, as documented at super_int.hpp:136-145 *)
Definition s_valid (N : Z) (a : sint) : Prop := 0 <= sval a < 2 ^ N.
Definition s_value (N : Z) (a : sint) : Z := if ssign a then sval a - 2 ^ N else sval a.

(* representable values of the (N+1)-bit two's complement type *)
Definition s_fits (N x : Z) : Prop := - 2 ^ N <= x < 2 ^ N.

(* r is x reduced to the (N+1)-bit two's complement range *)
Definition s_reduces (N x r : Z) : Prop :=
  s_fits N r /\ exists k, r = x + k * 2 ^ (N + 1).

(* outcome of an overflow-detecting operation on a with mathematical result x *)
Definition s_ov_outcome (N : Z) (a : sint) (x : Z) (res : bool * sint) : Prop :=
  (s_fits N x /\ fst res = false /\ s_valid N (snd res) /\ s_value N (snd res) = x) \/
  (~ s_fits N x /\ res = (true, a)).
