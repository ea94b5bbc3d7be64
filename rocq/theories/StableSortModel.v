(* Model of core::stable_sort (src/archon/core/algorithm.hpp).  An access outside of the
   range, or a decrement past its beginning, is None. *)
From Coq Require Import List Arith.
From Verif Require Import ArrLib.
Import ListNotations.

Section Sort.
Context {A : Type} (compare : A -> A -> bool).

(* the do-while loop: algorithm.hpp:60-65 *)
Fixpoint shift (fuel : nat) (a : list A) (k j : nat) : option (list A) :=
  match fuel with
  | O => None
  | S fuel =>
    let l := k in
    match k with
    | O => None
    | S k =>
      let? v := nth_error a k in
      let? a := set_nth a l v in
      if k =? j then Some a else shift fuel a k j
    end
  end.

(* the inner loop: algorithm.hpp:56-68 *)
Fixpoint inner (fuel : nat) (a : list A) (i j : nat) : option (list A) :=
  match fuel with
  | O => None
  | S fuel =>
    if j =? i then Some a
    else
      let? x := nth_error a i in
      let? y := nth_error a j in
      if negb (compare x y) then inner fuel a i (S j)
      else
        let val := x in
        let? a := shift (S i) a i j in
        set_nth a j val
  end.

(* the outer loop: algorithm.hpp:55-69 *)
Fixpoint outer (fuel : nat) (a : list A) (i : nat) : option (list A) :=
  match fuel with
  | O => None
  | S fuel =>
    if i =? length a then Some a
    else
      let? a := inner (S i) a i 0 in
      outer fuel a (S i)
  end.

(* stable_sort: algorithm.hpp:53-70 *)
Definition stable_sort (a : list A) : option (list A) := outer (S (length a)) a 0.

End Sort.
