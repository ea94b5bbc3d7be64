(* Independent specification for parsing of integers. *)
From Coq Require Import ZArith List.
Import ListNotations.
Open Scope Z_scope.

(* Value of decimal digits *)
Fixpoint decimal (ds : list Z) : Z :=
  match ds with
  | [] => 0
  | d :: rest => (d - 48) * 10 ^ Z.of_nat (length rest) + decimal rest
  end.

(* The string is a decimal numeral with the specified sign (none, +, or -) and value *)
Inductive numeral : option Z -> list Z -> Z -> Prop :=
| num_plain ds : ds <> [] -> Forall (fun d => 48 <= d <= 57) ds -> numeral None ds (decimal ds)
| num_plus ds : ds <> [] -> Forall (fun d => 48 <= d <= 57) ds -> numeral (Some 43) (43 :: ds) (decimal ds)
| num_minus ds : ds <> [] -> Forall (fun d => 48 <= d <= 57) ds -> numeral (Some 45) (45 :: ds) (- decimal ds).
