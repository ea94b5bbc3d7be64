(* Model of archon::core::RangeMap (src/archon/core/range_map.hpp).

   K is an integer type with values [kmin, kmax].  Results of key arithmetic are
   converted to K; a result outside the range of K is a distinct outcome (None).
   std::map is modelled by its list of entries in key order,
   (first, (last, value)); iterators are positions in that list.  func and equal
   are modelled as pure total functions; exceptions (from memory allocation,
   func or equal) are not modelled.  None also stands for failed assertion,
   dereferencing end(), and fuel exhaustion. *)
From Coq Require Import List ZArith Bool Lia.
From Verif Require Import ArrLib.
Import ListNotations.
Open Scope Z_scope.

Section RM.
Context {T : Type} (kmin kmax : Z) (default : T).
Let entry : Type := (Z * (Z * T))%type.

(* conversion K(x), for x the exact mathematical result *)
Definition to_key (x : Z) : option Z := if (kmin <=? x) && (x <=? kmax) then Some x else None.

(* std::map::lower_bound *)
Fixpoint map_lower_bound (m : list entry) (k : Z) : nat :=
  match m with
  | [] => O
  | e :: m => if fst e <? k then S (map_lower_bound m k) else O
  end.

(* std::map::insert (the hint does not affect the outcome); result: the entries,
   the position of the entry with that key, and whether it is new *)
Definition map_insert (m : list entry) (e : entry) : list entry * nat * bool :=
  let i := map_lower_bound m (fst e) in
  match nth_error m i with
  | Some e' => if fst e' =? fst e then (m, i, false) else (firstn i m ++ e :: skipn i m, i, true)
  | None => (firstn i m ++ e :: skipn i m, i, true)
  end.

(* position of the node at position i after an insertion *)
Definition shift_pos (i j : nat) (is_new : bool) : nat :=
  if is_new && (j <=? i)%nat then S i else i.

(* func(i->second.second) *)
Definition apply_func (f : T -> T) (m : list entry) (i : nat) : option (list entry) :=
  let? e := nth_error m i in
  set_nth m i (fst e, (fst (snd e), f (snd (snd e)))).

(* i->second.first = x *)
Definition set_last (m : list entry) (i : nat) (x : Z) : option (list entry) :=
  let? e := nth_error m i in
  set_nth m i (fst e, (x, snd (snd e))).

(* the statement after the loop: range_map.hpp:199-203 *)
Definition update_tail (f : T -> T) (m : list entry) (first last : Z) : option (list entry) :=
  let '(m, i, _) := map_insert m (first, (last, default)) in
  apply_func f m i.

(* the loop: range_map.hpp:162-197 *)
Fixpoint update_loop (fuel : nat) (f : T -> T) (m : list entry) (i : nat) (first last : Z) : option (list entry) :=
  match fuel with
  | O => None
  | S fuel =>
    match nth_error m i with
    | None => update_tail f m first last                       (* i == m_map.end() *)
    | Some ei =>
      let i_first := fst ei in
      if last <? i_first then update_tail f m first last
      else
        let? st :=
          (if first <? i_first then
             let? last' := to_key (i_first - 1) in
             let '(m1, j, is_new) := map_insert m (first, (last', default)) in
             let? m2 := apply_func f m1 j in
             Some (m2, shift_pos i j is_new, i_first)
           else Some (m, i, first)) in
        let '(m, i, first) := st in
        let? ei := nth_error m i in
        let i_last := fst (snd ei) in
        if last <? i_last then
          let? first' := to_key (last + 1) in
          let '(m1, j, is_new) := map_insert m (first', snd ei) in
          let i := shift_pos i j is_new in
          let? m2 := set_last m1 i last in
          apply_func f m2 i
        else
          let? m := apply_func f m i in
          if last =? i_last then Some m
          else
            let? first' := to_key (i_last + 1) in
            update_loop fuel f m (S i) first' last
    end
  end.

(* update: range_map.hpp:140-204 *)
Definition rm_update (f : T -> T) (m : list entry) (first last : Z) : option (list entry) :=
  if negb (first <=? last) then None
  else
    let i := map_lower_bound m first in
    let? st :=
      (if (i =? 0)%nat then Some (m, i)
       else
         let j := Nat.pred i in
         let? ej := nth_error m j in
         let j_last := fst (snd ej) in
         if first <=? j_last then
           let '(m1, i1, is_new) := map_insert m (first, snd ej) in
           let? x := to_key (first - 1) in
           let? m2 := set_last m1 (shift_pos j i1 is_new) x in
           Some (m2, i1)
         else Some (m, i)) in
    let '(m, i) := st in
    update_loop (S (length m)) f m i first last.

(* update(key, func): range_map.hpp:133-136; assign: 119-129 *)
Definition rm_update_key (f : T -> T) (m : list entry) (k : Z) := rm_update f m k k.
Definition rm_assign (v : T) (m : list entry) (first last : Z) := rm_update (fun _ => v) m first last.
Definition rm_assign_key (v : T) (m : list entry) (k : Z) := rm_assign v m k k.

(* defrag: range_map.hpp:215-237 *)
Fixpoint defrag_loop (fuel : nat) (equal : T -> T -> bool) (m : list entry) (i j : nat) : option (list entry) :=
  match fuel with
  | O => None
  | S fuel =>
    match nth_error m j with
    | None => Some m                                            (* j == end *)
    | Some ej =>
      let? ei := nth_error m i in
      let? next := to_key (fst (snd ei) + 1) in
      if negb ((fst ej =? next) && equal (snd (snd ei)) (snd (snd ej))) then
        defrag_loop fuel equal m j (S j)
      else
        let? m1 := set_last m i (fst (snd ej)) in
        defrag_loop fuel equal (firstn j m1 ++ skipn (S j) m1) i j    (* erase(j) *)
    end
  end.
Definition rm_defrag (equal : T -> T -> bool) (m : list entry) : option (list entry) :=
  match m with
  | [] => Some m
  | _ => defrag_loop (length m) equal m 0 1
  end.
End RM.
