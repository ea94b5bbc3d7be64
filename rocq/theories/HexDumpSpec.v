(* Specification vocabulary for C138 to C140, independent of the model: joined strings and hexadecimal
   numerals. *)
From Coq Require Import ZArith List.
From Verif Require Import CInt IntTextSpec.
Import ListNotations.
Open Scope Z_scope.

(* the strings with the separator between any two of them *)
Fixpoint join {C} (sep : list C) (strs : list (list C)) : list C :=
  match strs with
  | [] => []
  | [s] => s
  | s :: rest => s ++ sep ++ join sep rest
  end.

Definition len {C} (s : list C) : Z := Z.of_nat (length s).

(* s is the upper-case hexadecimal numeral of v with at least m digits, and with leading zeros only to reach m digits *)
Definition hex_numeral {C} (widen : Z -> C) (m v : Z) (s : list C) : Prop :=
  exists cs ds, s = map widen cs /\ digit_string 16 cs ds /\ positional 16 ds = v /\
    Forall (fun c => ~ (97 <= c <= 122)) cs /\ m <= len cs /\
    (forall ds', ds = 0 :: ds' -> len cs <= m).

(* number of digits for elements with the given number of bits *)
Definition digits_of (min_digits width : Z) : Z :=
  if min_digits <=? 0 then (width + 3) / 4 else min_digits.

(* what to show of strs when there is room for m characters: all of it, or as much as leaves room for the ellipsis *)
Definition shown {C} (sep dots : list C) (m : Z) (strs : list (list C)) (out : list C) : Prop :=
  (len (join sep strs) <= m /\ out = join sep strs) \/
  (m < len (join sep strs) /\ exists k, (k < length strs)%nat /\
     out = join sep (firstn k strs) ++ dots /\
     len (join sep (firstn k strs)) <= m - len dots /\
     (m - len dots < len (join sep (firstn (S k) strs)))).
