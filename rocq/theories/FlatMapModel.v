(* Model of archon::core::impl::FlatMapImpl (src/archon/core/impl/flat_map_impl.hpp)
   and of the front ends FlatMap (flat_map.hpp), FlatMultimap (flat_multimap.hpp),
   FlatSet and FlatMultiset (flat_set.hpp, flat_multiset.hpp; the same functions
   with E := K).

   E: entry type, key: get_key (flat_map_impl.hpp:278), less: operator< on keys
   (290).  The underlying Vector is modelled by the list of its elements (see
   VectorModel.v for Vector itself): emplace(i, e) inserts before position i,
   erase(i, j) removes [i, j).  Pointers into the array are modelled as indices.
   None: undefined behaviour (access outside the array) or fuel exhaustion;
   proved unreachable. *)
From Coq Require Import List Arith Bool.
From Verif Require Import ArrLib.
Import ListNotations.

Section FlatMap.
Context {K E : Type} (less : K -> K -> bool) (key : E -> K).

(* Vector::emplace before position i (vector_impl.hpp:243-258); i > size is
   undefined behaviour *)
Definition vec_emplace (es : list E) (i : nat) (e : E) : option (list E) :=
  if i <=? length es then Some (firstn i es ++ e :: skipn i es) else None.

(* Vector::erase(begin, end) (vector_impl.hpp:262-273) *)
Definition vec_erase (es : list E) (i j : nat) : option (list E) :=
  if (i <=? j) && (j <=? length es) then Some (firstn i es ++ skipn j es) else None.

(* lower_bound: flat_map_impl.hpp:130-146 *)
Fixpoint lower_bound_loop (fuel : nat) (es : list E) (k : K) (begin end_ : nat) : option nat :=
  match fuel with
  | O => None
  | S fuel =>
    if begin =? end_ then Some begin
    else
      let mid := begin + (end_ - begin) / 2 in
      let? e := nth_error es mid in
      if less (key e) k then lower_bound_loop fuel es k (mid + 1) end_
      else lower_bound_loop fuel es k begin mid
  end.
Definition lower_bound (es : list E) (k : K) : option nat :=
  lower_bound_loop (S (length es)) es k 0 (length es).

(* do_upper_bound: flat_map_impl.hpp:248-264 *)
Fixpoint upper_bound_loop (fuel : nat) (es : list E) (k : K) (begin end_ : nat) : option nat :=
  match fuel with
  | O => None
  | S fuel =>
    if begin =? end_ then Some begin
    else
      let mid := begin + (end_ - begin) / 2 in
      let? e := nth_error es mid in
      if negb (less k (key e)) then upper_bound_loop fuel es k (mid + 1) end_
      else upper_bound_loop fuel es k begin mid
  end.
Definition do_upper_bound (es : list E) (k : K) (i : nat) : option nat :=
  upper_bound_loop (S (length es)) es k i (length es).

(* upper_bound: flat_map_impl.hpp:150-154 *)
Definition upper_bound (es : list E) (k : K) : option nat := do_upper_bound es k 0.

(* equal_range: flat_map_impl.hpp:158-164 *)
Definition equal_range (es : list E) (k : K) : option (nat * nat) :=
  let? begin := lower_bound es k in
  let? end_ := do_upper_bound es k begin in
  Some (begin, end_).

(* do_find: flat_map_impl.hpp:268-274; result: (found, i) *)
Definition do_find (es : list E) (k : K) : option (bool * nat) :=
  let? i := lower_bound es k in
  if i <? length es then
    let? e := nth_error es i in Some (negb (less k (key e)), i)
  else Some (false, i).

(* find: flat_map_impl.hpp:119-126 *)
Definition fm_find (es : list E) (k : K) : option nat :=
  let? r := do_find es k in
  Some (if fst r then snd r else length es).

(* insert: flat_map_impl.hpp:168-179; result: (new entries, position, inserted) *)
Definition fm_insert (es : list E) (e : E) : option (list E * nat * bool) :=
  let? r := do_find es (key e) in
  if negb (fst r) then
    let? es' := vec_emplace es (snd r) e in Some (es', snd r, true)
  else Some (es, snd r, false).

(* insert_multi: flat_map_impl.hpp:183-190 *)
Definition fm_insert_multi (es : list E) (e : E) : option (list E * nat) :=
  let? i := upper_bound es (key e) in
  let? es' := vec_emplace es i e in Some (es', i).

(* erase: flat_map_impl.hpp:194-202; result: (new entries, number erased) *)
Definition fm_erase (es : list E) (k : K) : option (list E * nat) :=
  let? p := equal_range es k in
  let? es' := vec_erase es (fst p) (snd p) in
  Some (es', snd p - fst p).

(* contains: flat_map.hpp:392-396, flat_multimap.hpp:361-365 *)
Definition fm_contains (es : list E) (k : K) : option bool :=
  let? i := fm_find es k in Some (negb (i =? length es)).

(* FlatMultimap::count: flat_multimap.hpp:369-374 *)
Definition fm_count_multi (es : list E) (k : K) : option nat :=
  let? p := equal_range es k in Some (snd p - fst p).

(* dereferencing the iterator returned by find, unless it is end() *)
Definition fm_lookup (es : list E) (k : K) : option (option E) :=
  let? i := fm_find es k in
  if i =? length es then Some None else let? e := nth_error es i in Some (Some e).
End FlatMap.

(* FlatMap: E = K * V *)
Section FlatMapPairs.
Context {K V : Type} (less : K -> K -> bool) (default : V).
Let E : Type := (K * V)%type.

(* FlatMap::count: flat_map.hpp:400-404 *)
Definition fm_count (es : list E) (k : K) : option nat :=
  let? b := fm_contains less fst es k in Some (if b then 1 else 0).

(* FlatMap::at: flat_map.hpp:188-204; Some None: std::out_of_range thrown *)
Definition fm_at (es : list E) (k : K) : option (option V) :=
  let? r := fm_lookup less fst es k in Some (option_map snd r).

(* operator[] followed by assignment through the returned reference, m[k] = v:
   flat_map.hpp:208-212 *)
Definition fm_subscript_assign (es : list E) (k : K) (v : V) : option (list E) :=
  let? r := fm_insert less fst es (k, default) in
  let '(es', i, _) := r in
  let? e := nth_error es' i in
  set_nth es' i (fst e, v).

(* operator[] used for reading *)
Definition fm_subscript (es : list E) (k : K) : option (list E * V) :=
  let? r := fm_insert less fst es (k, default) in
  let '(es', i, _) := r in
  let? e := nth_error es' i in
  Some (es', snd e).

(* Histories of operations on an initially empty FlatMap *)
Inductive fm_op :=
| FmInsert (k : K) (v : V)
| FmAssign (k : K) (v : V)      (* m[k] = v *)
| FmSubscript (k : K)           (* m[k] as a value *)
| FmErase (k : K)
| FmClear
| FmLookup (k : K)              (* find(k), dereferenced unless end() *)
| FmContains (k : K)
| FmCount (k : K)
| FmAt (k : K).

Inductive fm_out :=
| FoInserted (e : K * V) (inserted : bool)     (* entry at the returned position *)
| FoUnit
| FoVal (v : V)
| FoNum (n : nat)
| FoEntry (e : option (K * V))
| FoBool (b : bool)
| FoAt (v : option V).                          (* None: exception *)

Definition fm_step (es : list E) (op : fm_op) : option (list E * fm_out) :=
  match op with
  | FmInsert k v =>
    let? r := fm_insert less fst es (k, v) in
    let '(es', i, b) := r in
    let? e := nth_error es' i in
    Some (es', FoInserted e b)
  | FmAssign k v => let? es' := fm_subscript_assign es k v in Some (es', FoUnit)
  | FmSubscript k => let? r := fm_subscript es k in Some (fst r, FoVal (snd r))
  | FmErase k => let? r := fm_erase less fst es k in Some (fst r, FoNum (snd r))
  | FmClear => Some ([], FoUnit)
  | FmLookup k => let? r := fm_lookup less fst es k in Some (es, FoEntry r)
  | FmContains k => let? r := fm_contains less fst es k in Some (es, FoBool r)
  | FmCount k => let? r := fm_count es k in Some (es, FoNum r)
  | FmAt k => let? r := fm_at es k in Some (es, FoAt r)
  end.

Fixpoint fm_run (es : list E) (ops : list fm_op) : option (list E * list fm_out) :=
  match ops with
  | [] => Some (es, [])
  | op :: ops =>
    let? r := fm_step es op in
    let? r2 := fm_run (fst r) ops in
    Some (fst r2, snd r :: snd r2)
  end.
End FlatMapPairs.

(* Histories of operations on an initially empty FlatMultimap / FlatMultiset *)
Section FlatMulti.
Context {K E : Type} (less : K -> K -> bool) (key : E -> K).

Inductive mm_op :=
| MmInsert (e : E)
| MmErase (k : K)
| MmClear
| MmLookup (k : K)
| MmContains (k : K)
| MmCount (k : K).

Inductive mm_out :=
| MoInserted (e : E)
| MoUnit
| MoNum (n : nat)
| MoEntry (e : option E)
| MoBool (b : bool).

Definition mm_step (es : list E) (op : mm_op) : option (list E * mm_out) :=
  match op with
  | MmInsert e =>
    let? r := fm_insert_multi less key es e in
    let? e' := nth_error (fst r) (snd r) in
    Some (fst r, MoInserted e')
  | MmErase k => let? r := fm_erase less key es k in Some (fst r, MoNum (snd r))
  | MmClear => Some ([], MoUnit)
  | MmLookup k => let? r := fm_lookup less key es k in Some (es, MoEntry r)
  | MmContains k => let? r := fm_contains less key es k in Some (es, MoBool r)
  | MmCount k => let? r := fm_count_multi less key es k in Some (es, MoNum r)
  end.

Fixpoint mm_run (es : list E) (ops : list mm_op) : option (list E * list mm_out) :=
  match ops with
  | [] => Some (es, [])
  | op :: ops =>
    let? r := mm_step es op in
    let? r2 := mm_run (fst r) ops in
    Some (fst r2, snd r :: snd r2)
  end.
End FlatMulti.
