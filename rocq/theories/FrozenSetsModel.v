(* Model of archon::core::FrozenSets (src/archon/core/frozen_sets.hpp).

   The element vector is a list; an Ident is a pair (m_begin, m_end) of positions
   (frozen_sets.hpp:86-103; default: (0, 0)).  less: the comparison object C.
   sort: std::sort, left open because the relative order of equivalent elements
   is unspecified (theorems assume only that it yields a sorted permutation).
   Exceptions are not modelled.  None: access outside the vector (undefined
   behaviour) or failed assertion.  std::set_union reads the two input ranges at
   positions below the old size, so appending to the vector does not affect
   them; its inputs are therefore modelled as slices taken before. *)
From Coq Require Import List Arith Bool.
From Verif Require Import ArrLib.
Import ListNotations.

Section FS.
Context {T : Type} (less : T -> T -> bool) (default : T) (sort : list T -> list T).

Notation ident := (nat * nat)%type.
Definition ident_size (i : ident) : nat := snd i - fst i.       (* frozen_sets.hpp:328-331 *)

(* operator[]: frozen_sets.hpp:282-287 *)
Definition fs_get (elems : list T) (i : ident) : option (list T) :=
  if (fst i <=? snd i) && (snd i <=? length elems)
  then Some (firstn (snd i - fst i) (skipn (fst i) elems)) else None.

(* std::vector::resize *)
Definition vresize (elems : list T) (n : nat) : list T :=
  firstn n elems ++ repeat default (n - length elems).

(* std::unique with the equivalence induced by less: frozen_sets.hpp:150-154 *)
Fixpoint uniq_from (a : T) (l : list T) : list T :=
  match l with
  | [] => [a]
  | b :: l => if negb (less a b) && negb (less b a) then uniq_from a l else a :: uniq_from b l
  end.
Definition uniq (l : list T) : list T := match l with [] => [] | a :: l => uniq_from a l end.

(* std::set_union *)
Fixpoint set_union (l1 : list T) : list T -> list T :=
  fix inner (l2 : list T) : list T :=
    match l1, l2 with
    | [], _ => l2
    | _, [] => l1
    | a :: l1', b :: l2' =>
      if less b a then b :: inner l2'
      else if less a b then a :: set_union l1' l2
      else a :: set_union l1' l2'
    end.

(* freeze_unordered: frozen_sets.hpp:141-163 *)
Definition freeze_unordered (elems : list T) (xs : list T) : list T * ident :=
  let begin_2 := length elems in
  let s := uniq (sort xs) in
  (elems ++ s, (begin_2, begin_2 + length s)).

(* freeze_ordered: frozen_sets.hpp:167-181 *)
Definition freeze_ordered (elems : list T) (xs : list T) : list T * ident :=
  let begin_2 := length elems in
  let elems := elems ++ xs in
  (elems, (begin_2, length elems)).

(* freeze(elem): frozen_sets.hpp:120-123 *)
Definition freeze1 (elems : list T) (x : T) : list T * ident := freeze_ordered elems [x].

(* unite_ordered: frozen_sets.hpp:250-268 *)
Definition unite_ordered (elems : list T) (i : ident) (xs : list T) : option (list T * ident) :=
  let? li := fs_get elems i in
  let begin_2 := length elems in
  let elems := elems ++ set_union li xs in
  let end_2 := length elems in
  if ident_size i <? end_2 - begin_2 then Some (elems, (begin_2, end_2))
  else Some (vresize elems begin_2, i).

(* discard_from: frozen_sets.hpp:297-302 *)
Definition discard_from (elems : list T) (i : ident) : option (list T) :=
  if fst i <=? length elems then Some (vresize elems (fst i)) else None.

(* unite(Ident, Ident): frozen_sets.hpp:193-202 *)
Definition unite (elems : list T) (i j : ident) : option (list T * ident) :=
  let? lj := fs_get elems j in
  let? r := unite_ordered elems i lj in
  let '(elems, k) := r in
  if ident_size j <? ident_size k then Some (elems, k)
  else let? elems := discard_from elems k in Some (elems, j).

(* unite(Ident, const T&): frozen_sets.hpp:206-209 *)
Definition unite1 (elems : list T) (i : ident) (x : T) : option (list T * ident) := unite_ordered elems i [x].

(* unite_unordered: frozen_sets.hpp:227-246.  std::copy_n copies forward to a
   position not after the source, so the destination receives the source range. *)
Definition unite_unordered (elems : list T) (i : ident) (xs : list T) : option (list T * ident) :=
  let begin_2 := length elems in
  let '(elems, j) := freeze_unordered elems xs in
  let? r := unite elems i j in
  let '(elems, k) := r in
  if ident_size i <? ident_size k then
    let? lk := fs_get elems k in
    let elems := firstn begin_2 elems ++ lk ++ skipn (begin_2 + length lk) elems in
    let end_2 := begin_2 + length lk in
    Some (vresize elems end_2, (begin_2, end_2))
  else Some (vresize elems begin_2, i).

(* Histories: operations refer to earlier results by number; number 0 is the
   default-constructed identifier (empty set). *)
Inductive fs_op :=
| FsFreeze1 (x : T)
| FsFreezeUnordered (xs : list T)
| FsFreezeOrdered (xs : list T)
| FsUnite (a b : nat)
| FsUnite1 (a : nat) (x : T)
| FsUniteUnordered (a : nat) (xs : list T)
| FsUniteOrdered (a : nat) (xs : list T).

Notation fs_state := (list T * list (nat * nat))%type.
Definition fs_init : fs_state := ([], [(0, 0)]).

Definition fs_step (st : fs_state) (op : fs_op) : option fs_state :=
  let '(elems, ids) := st in
  let add (r : list T * ident) : fs_state := (fst r, ids ++ [snd r]) in
  match op with
  | FsFreeze1 x => Some (add (freeze1 elems x))
  | FsFreezeUnordered xs => Some (add (freeze_unordered elems xs))
  | FsFreezeOrdered xs => Some (add (freeze_ordered elems xs))
  | FsUnite a b =>
    let? i := nth_error ids a in let? j := nth_error ids b in
    let? r := unite elems i j in Some (add r)
  | FsUnite1 a x => let? i := nth_error ids a in let? r := unite1 elems i x in Some (add r)
  | FsUniteUnordered a xs => let? i := nth_error ids a in let? r := unite_unordered elems i xs in Some (add r)
  | FsUniteOrdered a xs => let? i := nth_error ids a in let? r := unite_ordered elems i xs in Some (add r)
  end.
Fixpoint fs_run (st : fs_state) (ops : list fs_op) : option fs_state :=
  match ops with
  | [] => Some st
  | op :: ops => let? st := fs_step st op in fs_run st ops
  end.
End FS.
