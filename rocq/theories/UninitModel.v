(* Model of the functions for working with uninitialised memory of core/memory.hpp
   (Uninit_0<T, false>: 280-406), used by Vector and Deque.

   Memory is a list of slots: None is uninitialised storage, Some x an object.
   Constructing an object over a live one, reading, moving from or destroying an
   uninitialised slot, or touching a slot outside the list, is None.

   Simplifications: T has a non-throwing move constructor; moving an element is copying it (the
   moved-from object is destroyed right away in all the functions below, so its value is
   never observed); Uninit_0<T, true> (409-453), the variant for trivial types, has the
   same effect without the destructor calls. *)
From Coq Require Import List Arith.
From Verif Require Import ArrLib BufferModel.
Import ListNotations.

Section Uninit.
Context {T : Type}.
Notation mem := (list (option T)).

(* new (&p) T(x): memory.hpp:283, 298, 319, 343 *)
Definition create (m : mem) (p : nat) (x : T) : option mem :=
  match nth_error m p with
  | Some None => set_nth m p (Some x)
  | _ => None
  end.

(* p->~T() *)
Definition kill (m : mem) (p : nat) : option mem :=
  match nth_error m p with
  | Some (Some _) => set_nth m p None
  | _ => None
  end.

(* *p *)
Definition fetch (m : mem) (p : nat) : option T :=
  match nth_error m p with
  | Some (Some x) => Some x
  | _ => None
  end.

(* Ghost check used where memory is released: it must not hold any live object. *)
Definition all_free (m : mem) : bool := forallb (fun s => match s with None => true | _ => false end) m.

(* destroy: memory.hpp:286-291 *)
Fixpoint uninit_destroy (m : mem) (data size : nat) : option mem :=
  match size with
  | O => Some m
  | S size => let? m := kill m data in uninit_destroy m (S data) size
  end.

(* The back-out loop of safe_fill: memory.hpp:306-309 *)
Fixpoint destroy_back (m : mem) (uninit i : nat) : option mem :=
  match i with
  | O => Some m
  | S i => let? m := kill m (uninit + i) in destroy_back m uninit i
  end.

(* safe_fill: memory.hpp:293-312 (values are T()) and 314-333 (values are copies of one
   value).  make i is the outcome of the constructor of element i: None if it throws.
   n is the number of elements that remain. *)
Fixpoint safe_fill_loop (m : mem) (n : nat) (make : nat -> option T) (uninit i : nat) : outcome mem :=
  match n with
  | O => Done m
  | S n =>
    match make i with
    | None => match destroy_back m uninit i with Some m => Throw m | None => UB end
    | Some x =>
      match create m (uninit + i) x with
      | None => UB
      | Some m => safe_fill_loop m n make uninit (S i)
      end
    end
  end.
Definition uninit_safe_fill (m : mem) (size : nat) (make : nat -> option T) (uninit : nat) : outcome mem :=
  safe_fill_loop m size make uninit 0.

(* safe_copy: memory.hpp:335-352.  The source is memory outside the array; an element of
   it is None if its copy constructor throws. *)
Fixpoint safe_copy_loop (m : mem) (src : list (option T)) (uninit i : nat) : outcome mem :=
  match src with
  | [] => Done m
  | None :: _ => match uninit_destroy m uninit i with Some m => Throw m | None => UB end
  | Some x :: src =>
    match create m (uninit + i) x with
    | None => UB
    | Some m => safe_copy_loop m src uninit (S i)
    end
  end.
Definition uninit_safe_copy (m : mem) (src : list (option T)) (uninit : nat) : outcome mem :=
  safe_copy_loop m src uninit 0.

(* safe_move: memory.hpp:354-367 (non-throwing move constructor), from one memory block to another *)
Fixpoint uninit_safe_move (m : mem) (data size : nat) (m2 : mem) (uninit : nat) : option (mem * mem) :=
  match size with
  | O => Some (m, m2)
  | S size =>
    let? x := fetch m data in
    let? m2 := create m2 uninit x in
    let? m := kill m data in
    uninit_safe_move m (S data) size m2 (S uninit)
  end.

(* safe_move_a: memory.hpp:369-378 (non-throwing move constructor), from one memory block to
   another; the source objects are left to be destroyed by the caller. *)
Fixpoint uninit_safe_move_a (m : mem) (data size : nat) (m2 : mem) (uninit : nat) : option mem :=
  match size with
  | O => Some m2
  | S size =>
    let? x := fetch m data in
    let? m2 := create m2 uninit x in
    uninit_safe_move_a m (S data) size m2 (S uninit)
  end.

(* safe_move within one memory block, and the loop of move_downwards:
   memory.hpp:354-367, 380-391.  data - dist must not be negative, unless nothing is
   moved: forming a pointer outside of the block without using it is not counted as an
   error in this model. *)
Fixpoint move_down_loop (m : mem) (data data2 size : nat) : option mem :=
  match size with
  | O => Some m
  | S size =>
    let? x := fetch m data in
    let? m := create m data2 x in
    let? m := kill m data in
    move_down_loop m (S data) (S data2) size
  end.
Definition uninit_move_downwards (m : mem) (data size dist : nat) : option mem :=
  if orb (size =? 0) (dist <=? data) then move_down_loop m data (data - dist) size else None.

(* move_upwards: memory.hpp:393-405.  The loop runs j from size - 1 down to 0. *)
Fixpoint uninit_move_upwards (m : mem) (data size dist : nat) : option mem :=
  match size with
  | O => Some m
  | S j =>
    let? x := fetch m (data + j) in
    let? m := create m (data + dist + j) x in
    let? m := kill m (data + j) in
    uninit_move_upwards m data j dist
  end.

End Uninit.
