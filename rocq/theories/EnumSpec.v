(* What enumerations with named values are to do, without reference to the model *)
From Coq Require Import ZArith List.
Import ListNotations.
Open Scope Z_scope.

(* the same letter, possibly one upper case and one lower case; ASCII *)
Definition same_letter (a b : Z) : Prop :=
  a = b \/ (97 <= a <= 122 /\ b = a - 32) \/ (97 <= b <= 122 /\ a = b - 32).

Definition same_name (ignore_case : bool) (a b : list Z) : Prop :=
  if ignore_case then Forall2 same_letter a b else a = b.

(* entries are (value, name); an entry clashes with an earlier one *)
Definition value_clash (earlier : list (Z * list Z)) (value : Z) : Prop :=
  exists name, In (value, name) earlier.

Definition name_clash (ignore_case : bool) (earlier : list (Z * list Z)) (name : list Z) : Prop :=
  exists value name', In (value, name') earlier /\ same_name ignore_case name' name.

(* no entry clashes with an earlier one *)
Definition clash_free (ignore_case : bool) (entries : list (Z * list Z)) : Prop :=
  forall earlier value name later, entries = earlier ++ (value, name) :: later ->
    ~ value_clash earlier value /\ ~ name_clash ignore_case earlier name.

(* s starts with no character of the class *)
Definition starts_outside {C} (class : C -> Prop) (s : list C) : Prop :=
  match s with
  | [] => True
  | ch :: _ => ~ class ch
  end.
