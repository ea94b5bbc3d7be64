(* What a histogram counts and what it looks like, independently of how it is computed *)
From Coq Require Import ZArith QArith String Ascii List Bool.
From Verif Require Import HistogramModel.
Import ListNotations.
Local Open Scope Z_scope.

(* Boundary i of n bins of equal width *)
Definition boundary (from to : Q) (n i : nat) : Q := (from + (to - from) * (Z.of_nat i # Pos.of_nat n))%Q.

Definition less (a b : Q) : bool := negb (Qle_bool b a).

Definition how_many (p : Q -> bool) (vals : list Q) : Z := Z.of_nat (length (filter p vals)).

(* Number of values below the range, in bin i, and above the range *)
Definition count_under (from : Q) (vals : list Q) : Z := how_many (fun v => less v from) vals.
Definition count_bin (from to : Q) (n i : nat) (vals : list Q) : Z :=
  how_many (fun v => Qle_bool (boundary from to n i) v && less v (boundary from to n (i + 1))) vals.
Definition count_over (to : Q) (vals : list Q) : Z := how_many (fun v => Qle_bool to v) vals.

(* Rows of the table: two bounds and a count *)
Definition row := (value * value * Z)%type.
Definition rows (from to : Q) (n : nat) (vals : list Q) (include : bool) : list row :=
  (if include then [(Below, Finite from, count_under from vals)] else []) ++
  map (fun i => (Finite (boundary from to n i), Finite (boundary from to n (i + 1)), count_bin from to n i vals)) (seq 0 n) ++
  (if include then [(Finite to, Above, count_over to vals)] else []).

Definition widest {C} (texts : list (list C)) : nat := list_max (map (@length C) texts).

Definition spaces {C} (widen : ascii -> C) (n : nat) : list C := repeat (widen " "%char) n.

(* A line with columns of width a, b, c, and d *)
Definition line {C} (widen : ascii -> C) (a b c d : nat) (from to count bar : list C) : list C :=
  from ++ spaces widen (a - length from) ++ map widen (list_ascii_of_string " -> ") ++
  to ++ spaces widen (b - length to) ++ map widen (list_ascii_of_string " : ") ++
  spaces widen (c - length count) ++ count ++ map widen (list_ascii_of_string " |") ++
  bar ++ spaces widen (d - length bar) ++ map widen (list_ascii_of_string "|").
