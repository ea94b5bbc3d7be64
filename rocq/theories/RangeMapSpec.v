(* Specification of RangeMap: the mapping denoted by a list of ranges. *)
From Coq Require Import List ZArith Bool Sorted.
Import ListNotations.
Open Scope Z_scope.

Section S.
Context {T : Type}.
(* the value of a key: that of the (first) range containing it *)
Fixpoint rm_get (m : list (Z * (Z * T))) (k : Z) : option T :=
  match m with
  | [] => None
  | (first, (last, v)) :: m => if (first <=? k) && (k <=? last) then Some v else rm_get m k
  end.

(* ranges are non-empty, within the key type, ordered and disjoint *)
Definition rm_ok (kmin kmax : Z) (m : list (Z * (Z * T))) : Prop :=
  Forall (fun e => kmin <= fst e <= fst (snd e) /\ fst (snd e) <= kmax) m /\
  StronglySorted (fun a b => fst (snd a) < fst b) m.

(* no two neighbouring ranges touch and have equal values *)
Fixpoint rm_defragmented (equal : T -> T -> bool) (m : list (Z * (Z * T))) : Prop :=
  match m with
  | [] => True
  | a :: m' =>
    match m' with
    | [] => True
    | b :: _ => ~ (fst b = fst (snd a) + 1 /\ equal (snd (snd a)) (snd (snd b)) = true)
    end /\ rm_defragmented equal m'
  end.
End S.
