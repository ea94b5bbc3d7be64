(* Model of k-d trees (src/archon/util/kdtree.hpp).

   The range of points is a list.  Components of points are mathematical integers: the
   rounding of floating-point components and overflow in integer ones are not modelled.
   get_comp() does not throw.  The value of find() is the squared distance; the final call
   of std::sqrt() is left out.  None stands for undefined behaviour (an access outside of
   an array), a failing assertion, or lack of fuel. *)
From Coq Require Import ZArith Bool List.
From Verif Require Import ArrLib.
Import ListNotations.
Open Scope Z_scope.

Section Kdtree.
  Variable point : Type.
  (* get_comp(p, i) *)
  Variable get_comp : point -> Z -> Z.
  (* number of dimensions *)
  Variable k : Z.
  (* max_levels: kdtree.hpp:120 *)
  Variable max_levels : Z.

  (* array access *)
  Definition at_ {A} (l : list A) (i : Z) : option A := if 0 <=? i then nth_error l (Z.to_nat i) else None.

  (* midpoint: kdtree.hpp:130-133 *)
  Definition midpoint (a b : Z) : Z := a + Z.quot (b - a - 1) 2.

  (* next_dim: kdtree.hpp:135-138 *)
  Definition next_dim (dim : Z) : Z := Z.rem (dim + 1) k.

  (* std::nth_element(first, nth, last, comp): the elements from first to last, with nth as
     position relative to first.  Any function that does what the standard requires. *)
  Variable nth_element : (point -> point -> bool) -> nat -> list point -> list point.

  (* kdtree.hpp:151-155, and the assertion 173 *)
  Record range := Range { r_parents_dim : Z; r_begin : Z; r_end : Z }.
  Definition push {A} (pending : list A) (r : A) : option (list A) :=
    if Z.of_nat (length pending) <? max_levels then Some (r :: pending) else None.

  (* sort: kdtree.hpp:142-194.  One unit of fuel for each pass from the label again.  The
     last pending range is at the head of the list. *)
  Fixpoint sort_loop (fuel : nat) (pts : list point) (dim a b : Z) (pending : list range) : option (list point) :=
    match fuel with
    | O => None
    | S fuel =>
      if a <? b then
        let c := midpoint a b in
        let less p q := get_comp p dim <? get_comp q dim in
        let seg := firstn (Z.to_nat (b - a)) (skipn (Z.to_nat a) pts) in
        let seg := nth_element less (Z.to_nat (c - a)) seg in
        let pts := firstn (Z.to_nat a) pts ++ seg ++ skipn (Z.to_nat b) pts in
        let d := c + 1 in
        let? pending := (if d <? b then push pending (Range dim d b) else Some pending) in
        if a <? c then sort_loop fuel pts (next_dim dim) a c pending
        else match pending with
             | r :: pending => sort_loop fuel pts (next_dim (r_parents_dim r)) (r_begin r) (r_end r) pending
             | [] => Some pts
             end
      else None
    end.

  Definition kdtree_sort (pts : list point) : option (list point) :=
    let size := Z.of_nat (length pts) in
    if negb (size =? 0) then sort_loop (length pts) pts 0 0 size []
    else Some pts.

  (* ---- find ---- *)

  Variable components : list Z.

  (* core::square: math.hpp:202-205 *)
  Definition square (v : Z) : Z := v * v.

  (* kdtree.hpp:232-234 *)
  Fixpoint sqdist_loop (n : nat) (i : Z) (p : point) (sqdist_2 : Z) : option Z :=
    match n with
    | O => Some sqdist_2
    | S n =>
      let? q := at_ components i in
      sqdist_loop n (i + 1) p (sqdist_2 + square (get_comp p i - q))
    end.

  (* kdtree.hpp:209-214 *)
  Record transrange := Transrange { t_parents_dim : Z; t_parents_midpoint : Z; t_begin : Z; t_end : Z }.

  (* find: kdtree.hpp:197-306.  enter tells whether control is at the label enter or leave.
     One unit of fuel for each pass from either label. *)
  Fixpoint find_loop (fuel : nat) (enter : bool) (pts : list point) (dim a b : Z) (pending : list transrange)
    (sqdist : Z) (have_sqdist : bool) (index : Z) : option (Z * Z) :=
    match fuel with
    | O => None
    | S fuel =>
      if enter then
        if a <? b then
          let c := midpoint a b in
          let? p := at_ pts c in
          let? sqdist_2 := sqdist_loop (Z.to_nat k) 0 p 0 in
          let upd := negb have_sqdist || (sqdist_2 <? sqdist) in
          let sqdist := if upd then sqdist_2 else sqdist in
          let have_sqdist := if upd then true else have_sqdist in
          let index := if upd then c else index in
          let d := c + 1 in
          let? q := at_ components dim in
          if q <=? get_comp p dim then
            let? pending := (if d <? b then push pending (Transrange dim c d b) else Some pending) in
            if a <? c then find_loop fuel true pts (next_dim dim) a c pending sqdist have_sqdist index
            else find_loop fuel false pts dim a b pending sqdist have_sqdist index
          else
            let? pending := (if a <? c then push pending (Transrange dim c a c) else Some pending) in
            if d <? b then find_loop fuel true pts (next_dim dim) d b pending sqdist have_sqdist index
            else find_loop fuel false pts dim a b pending sqdist have_sqdist index
        else None
      else
        match pending with
        | r :: pending =>
          let dim := t_parents_dim r in
          let c := t_parents_midpoint r in
          let? p := at_ pts c in
          let? q := at_ components dim in
          let sqdist_3 := square (get_comp p dim - q) in
          if have_sqdist then
            if sqdist <=? sqdist_3 then find_loop fuel false pts dim a b pending sqdist have_sqdist index
            else find_loop fuel true pts (next_dim dim) (t_begin r) (t_end r) pending sqdist have_sqdist index
          else None
        | [] => Some (index, sqdist)
        end
    end.

  (* The point and the squared distance if the function returns true *)
  Definition kdtree_find (pts : list point) (max_dist : option Z) : option (option (point * Z)) :=
    let size := Z.of_nat (length pts) in
    if negb (size =? 0) then
      let sqdist := match max_dist with Some d => square d | None => 0 end in
      let have_sqdist := match max_dist with Some _ => true | None => false end in
      let? (index, sqdist) := find_loop (2 * length pts + 1) true pts 0 0 size [] sqdist have_sqdist (-1) in
      if negb (index =? -1) then
        let? p := at_ pts index in
        Some (Some (p, sqdist))
      else Some None
    else Some None.
End Kdtree.
