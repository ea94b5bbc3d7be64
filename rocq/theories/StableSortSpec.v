(* Independent specification of stable sorting *)
From Coq Require Import List Bool Sorting.Sorted Sorting.Permutation.
Import ListNotations.

(* what C++ requires of a comparison function (strict weak ordering) *)
Definition strict_weak {A} (less : A -> A -> bool) : Prop :=
  (forall x, less x x = false) /\
  (forall x y z, less x y = true -> less y z = true -> less x z = true) /\
  (forall x y z, less x y = false -> less y z = false -> less x z = false).

(* neither is before the other *)
Definition tied {A} (less : A -> A -> bool) (x y : A) : bool := negb (less x y) && negb (less y x).

(* A rearrangement of l in which no element is before an element that it should come
   after, and in which tied elements are in their original order *)
Definition stably_sorted {A} (less : A -> A -> bool) (l l' : list A) : Prop :=
  Permutation l l' /\
  StronglySorted (fun x y => less y x = false) l' /\
  forall x, filter (tied less x) l' = filter (tied less x) l.
