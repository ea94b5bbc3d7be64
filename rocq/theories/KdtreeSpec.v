(* Independent specification of k-d trees. *)
From Coq Require Import ZArith Bool List Permutation.
Import ListNotations.
Open Scope Z_scope.

Section Spec.
  Variable point : Type.
  Variable comp : point -> Z -> Z.
  Variable k : Z.

  (* A list of points is a balanced k-d tree with respect to dimension dim: those before
     the point in the middle are not above it in that dimension, those after are not
     below, and both parts are trees with respect to the next dimension. *)
  Inductive kd : Z -> list point -> Prop :=
  | kd_empty : forall dim, kd dim []
  | kd_node : forall dim l p r,
      (length l = length r \/ S (length l) = length r)%nat ->
      (forall q, In q l -> comp q dim <= comp p dim) ->
      (forall q, In q r -> comp p dim <= comp q dim) ->
      kd ((dim + 1) mod k) l -> kd ((dim + 1) mod k) r ->
      kd dim (l ++ p :: r).

  (* What the standard requires of std::nth_element: the element at position n is the one
     that belongs there, and none before it is greater than one after it. *)
  Definition strict_weak (lt : point -> point -> bool) : Prop :=
    (forall x, lt x x = false) /\
    (forall x y z, lt x y = true -> lt y z = true -> lt x z = true) /\
    (forall x y z, lt x y = false -> lt y z = false -> lt x z = false).
  Definition nth_element_ok (ne : (point -> point -> bool) -> nat -> list point -> list point) : Prop :=
    forall lt n l, strict_weak lt -> (n < length l)%nat ->
    Permutation l (ne lt n l) /\
    forall i j p q, (i <= n <= j)%nat -> nth_error (ne lt n l) i = Some p -> nth_error (ne lt n l) j = Some q ->
    lt q p = false.

  (* squared distance to the point with the given components *)
  Fixpoint sqdist_from (i : Z) (query : list Z) (p : point) : Z :=
    match query with
    | [] => 0
    | q :: query => (comp p i - q) ^ 2 + sqdist_from (i + 1) query p
    end.
  Definition sqdist (query : list Z) (p : point) : Z := sqdist_from 0 query p.
End Spec.
