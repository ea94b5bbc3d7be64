(* Specification of FrozenSets: every issued identifier denotes a set of
   elements (up to the equivalence induced by the order). *)
From Coq Require Import List Bool Sorted Permutation.
From Verif Require Import FlatMapSpec FrozenSetsModel.
Import ListNotations.

Section S.
Context {T : Type} (lt : T -> T -> bool).
Definition set : Type := T -> bool.
Definition set_of (l : list T) : set := fun x => existsb (fun y => eqv lt x y) l.
Definition set_empty : set := fun _ => false.
Definition set_join (a b : set) : set := fun x => a x || b x.

(* the set denoted by the result of an operation, given those of earlier results *)
Definition spec_result (sets : list set) (op : @fs_op T) : option set :=
  match op with
  | FsFreeze1 x => Some (set_of [x])
  | FsFreezeUnordered xs => Some (set_of xs)
  | FsFreezeOrdered xs => Some (set_of xs)
  | FsUnite a b =>
    match nth_error sets a, nth_error sets b with Some s, Some t => Some (set_join s t) | _, _ => None end
  | FsUnite1 a x => match nth_error sets a with Some s => Some (set_join s (set_of [x])) | None => None end
  | FsUniteUnordered a xs => match nth_error sets a with Some s => Some (set_join s (set_of xs)) | None => None end
  | FsUniteOrdered a xs => match nth_error sets a with Some s => Some (set_join s (set_of xs)) | None => None end
  end.

Definition strictly_sorted (l : list T) : Prop := StronglySorted (fun a b => lt a b = true) l.

(* documented preconditions: ordered inputs are strictly ordered *)
Definition ordered_input (op : @fs_op T) : Prop :=
  match op with
  | FsFreezeOrdered xs | FsUniteOrdered _ xs => strictly_sorted xs
  | _ => True
  end.

(* the history is well-formed; sets are those denoted by the results so far *)
Fixpoint spec_run (sets : list set) (ops : list (@fs_op T)) : option (list set) :=
  match ops with
  | [] => Some sets
  | op :: ops =>
    match spec_result sets op with
    | Some s => spec_run (sets ++ [s]) ops
    | None => None
    end
  end.

(* elems and ids implement the list of sets *)
Definition implements (elems : list T) (ids : list (nat * nat)) (sets : list set) : Prop :=
  Forall2 (fun i s => exists l, fs_get elems i = Some l /\ strictly_sorted l /\ forall x, set_of l x = s x) ids sets.

(* the operation does not unite two equal sets via unite(Ident, Ident) *)
Definition not_equal_sets (sets : list set) (op : @fs_op T) : Prop :=
  match op with
  | FsUnite a b =>
    match nth_error sets a, nth_error sets b with
    | Some s, Some t => exists x, s x <> t x
    | _, _ => True
    end
  | FsUniteUnordered a xs =>
    match nth_error sets a with
    | Some s => exists x, s x <> set_of xs x
    | None => True
    end
  | _ => True
  end.
Fixpoint history_ok (sets : list set) (ops : list (@fs_op T)) : Prop :=
  match ops with
  | [] => True
  | op :: ops =>
    ordered_input op /\ not_equal_sets sets op /\
    match spec_result sets op with Some s => history_ok (sets ++ [s]) ops | None => False end
  end.

Definition sorts (sort : list T -> list T) : Prop :=
  forall l, Permutation (sort l) l /\ StronglySorted (fun a b => lt b a = false) (sort l).
End S.
