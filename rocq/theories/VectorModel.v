(* Model of core/vector.hpp and core/impl/vector_impl.hpp (C25).

   The storage is the memory block in use (static or allocated), a list of slots as in
   UninitModel.  v_owned is whether m_owned_memory is set.  Sizes are natural numbers;
   additions and multiplications that the code checks for overflow are done with the
   models of try_int_add and try_int_mul at size_t of W bits.  Allocation failure
   (std::bad_alloc) is not modelled.  A constructor argument of type option T is None if
   the constructor throws; arguments do not refer to elements of the vector itself.
   UB is undefined behaviour or a failed assertion. *)
From Coq Require Import ZArith List Bool Arith.
From Verif Require Import CInt IntModel BufferModel ArrLib UninitModel.
Import ListNotations.
Open Scope nat_scope.

(* m_owned_memory, m_data, m_capacity, m_size: impl/vector_impl.hpp:76-79 *)
Record vec (T : Type) := Vec {
  v_owned : bool;
  v_mem : list (option T);
  v_capacity : nat;
  v_size : nat
}.
Arguments Vec {T}. Arguments v_owned {T}. Arguments v_mem {T}.
Arguments v_capacity {T}. Arguments v_size {T}.

Section Vector.
Context {T : Type}.
Context (W : Z).          (* width of size_t *)
Context (sizeof_T : Z).   (* sizeof (T) *)
Notation vec := (vec T).

Definition t_size : ity := ITy W false.

(* Sequencing of a step that may throw (the exception propagates with the state left
   behind by it). *)
Definition vbind (r : outcome vec) (k : vec -> outcome vec) : outcome vec :=
  match r with Done v => k v | Throw v => Throw v | UB => UB end.
(* A step that never throws *)
Definition obnd {A} (r : option A) (k : A -> outcome vec) : outcome vec :=
  match r with Some a => k a | None => UB end.

(* Vector(): vector.hpp:277-281 and reset: impl/vector_impl.hpp:105-113, on fresh static
   memory for N elements *)
Definition vempty (N : nat) : vec := Vec false (repeat None N) N 0.

(* realloc: impl/vector_impl.hpp:332-345.  The old memory is released (or, if static, left
   behind); the ghost check all_free says that no object is leaked in it. *)
Definition realloc (v : vec) (new_capacity : nat) : outcome vec :=
  if negb (v_size v <=? new_capacity) then UB
  else
    obnd (try_int_mul t_size t_size (Z.of_nat new_capacity) sizeof_T) (fun r =>
    if negb (fst r) then Throw v
    else
      let new_mem := repeat None new_capacity in
      obnd (uninit_safe_move (v_mem v) 0 (v_size v) new_mem 0) (fun mm =>
      if all_free (fst mm) then Done (Vec true (snd mm) new_capacity (v_size v)) else UB)).

(* do_reserve: impl/vector_impl.hpp:324-329; the default argument for max_size of
   suggest_new_buffer_size is std::size_t(-1) *)
Definition do_reserve (v : vec) (min_capacity : Z) : outcome vec :=
  obnd (suggest_new_buffer_size W (Z.of_nat (v_capacity v)) min_capacity (size_max W)) (fun new_capacity =>
  realloc v (Z.to_nat new_capacity)).

(* do_reserve_extra: impl/vector_impl.hpp:312-321 *)
Definition do_reserve_extra (v : vec) (min_extra_capacity : nat) : outcome vec :=
  obnd (try_int_add t_size t_size (Z.of_nat (v_size v)) (Z.of_nat min_extra_capacity)) (fun r =>
  if fst r then do_reserve v (snd r) else Throw v).

(* reserve_extra: impl/vector_impl.hpp:174-180 *)
Definition reserve_extra (v : vec) (min_extra_capacity : nat) : outcome vec :=
  if negb (v_size v <=? v_capacity v) then UB
  else if min_extra_capacity <=? v_capacity v - v_size v then Done v
  else do_reserve_extra v min_extra_capacity.

(* reserve: impl/vector_impl.hpp:183-189 *)
Definition reserve (v : vec) (min_capacity : nat) : outcome vec :=
  if min_capacity <=? v_capacity v then Done v
  else do_reserve_extra v min_capacity.

(* shrink_to_fit: impl/vector_impl.hpp:192-199 *)
Definition shrink_to_fit (v : vec) : outcome vec :=
  if v_owned v && (v_size v <? v_capacity v) then realloc v (v_size v) else Done v.

Definition with_mem (v : vec) (m : list (option T)) (size : nat) : vec :=
  Vec (v_owned v) m (v_capacity v) size.

(* emplace_back: impl/vector_impl.hpp:202-208 *)
Definition emplace_back (v : vec) (arg : option T) : outcome vec :=
  vbind (reserve_extra v 1) (fun v =>
  match arg with
  | None => Throw v
  | Some x => obnd (create (v_mem v) (v_size v) x) (fun m => Done (with_mem v m (v_size v + 1)))
  end).

(* pop_back: impl/vector_impl.hpp:211-218 *)
Definition pop_back (v : vec) : outcome vec :=
  if negb (0 <? v_size v) then UB
  else
    let new_size := v_size v - 1 in
    obnd (uninit_destroy (v_mem v) new_size 1) (fun m => Done (with_mem v m new_size)).

(* The result of a bulk construction *)
Definition filled (v : vec) (r : outcome (list (option T))) (size : nat) : outcome vec :=
  match r with
  | Done m => Done (with_mem v m size)
  | Throw m => Throw (with_mem v m (v_size v))
  | UB => UB
  end.

(* append(size, value): impl/vector_impl.hpp:221-227; make i is the outcome of the ith
   copy construction from the value *)
Definition append_fill (v : vec) (size : nat) (make : nat -> option T) : outcome vec :=
  vbind (reserve_extra v size) (fun v =>
  filled v (uninit_safe_fill (v_mem v) size make (v_size v)) (v_size v + size)).

(* append(begin, end): impl/vector_impl.hpp:230-239 *)
Definition append_copy (v : vec) (src : list (option T)) : outcome vec :=
  vbind (reserve_extra v (length src)) (fun v =>
  filled v (uninit_safe_copy (v_mem v) src (v_size v)) (v_size v + length src)).

(* do_append for input iterators: vector.hpp:743-748 *)
Fixpoint append_input (v : vec) (src : list (option T)) : outcome vec :=
  match src with
  | [] => Done v
  | x :: src => vbind (emplace_back v x) (fun v => append_input v src)
  end.

(* insert: impl/vector_impl.hpp:242-258.  m_size - offset must not wrap. *)
Definition insert (v : vec) (offset : nat) (arg : option T) : outcome vec :=
  vbind (reserve_extra v 1) (fun v =>
  if negb (offset <=? v_size v) then UB
  else
    let move_size := v_size v - offset in
    let move_dist := 1 in
    obnd (uninit_move_upwards (v_mem v) offset move_size move_dist) (fun m =>
    match arg with
    | None =>
      obnd (uninit_move_downwards m (offset + move_dist) move_size move_dist) (fun m =>
      Throw (with_mem v m (v_size v)))
    | Some x => obnd (create m offset x) (fun m => Done (with_mem v m (v_size v + 1)))
    end)).

(* erase: impl/vector_impl.hpp:261-273 *)
Definition erase (v : vec) (offset n : nat) : outcome vec :=
  if negb ((offset <=? v_size v) && (n <=? v_size v - offset)) then UB
  else if negb (0 <? n) then UB
  else
    obnd (uninit_destroy (v_mem v) offset n) (fun m =>
    let offset_2 := offset + n in
    let move_size := v_size v - offset_2 in
    let move_dist := n in
    obnd (uninit_move_downwards m offset_2 move_size move_dist) (fun m =>
    Done (with_mem v m (v_size v - n)))).

(* erase(begin, end): vector.hpp:648-657, with iterators as offsets *)
Definition erase_range (v : vec) (begin_ end_ : nat) : outcome vec :=
  let n := end_ - begin_ in
  if 0 <? n then erase v begin_ n else Done v.

(* clear: impl/vector_impl.hpp:276-281 *)
Definition clear (v : vec) : outcome vec :=
  obnd (uninit_destroy (v_mem v) 0 (v_size v)) (fun m => Done (with_mem v m 0)).

(* resize(size) and resize(size, value): impl/vector_impl.hpp:284-295 and 298-309 *)
Definition resize (v : vec) (size : nat) (make : nat -> option T) : outcome vec :=
  if size <=? v_size v then
    obnd (uninit_destroy (v_mem v) size (v_size v - size)) (fun m => Done (with_mem v m size))
  else
    vbind (reserve v size) (fun v =>
    filled v (uninit_safe_fill (v_mem v) size make (v_size v)) size).

(* at: vector.hpp:357-370 and verify_index: impl/vector_impl.hpp:137-143 *)
Definition at_ (v : vec) (i : nat) : outcome (option T) :=
  if i <? v_size v then
    match fetch (v_mem v) i with Some x => Done (Some x) | None => UB end
  else Throw None.

(* destroy: impl/vector_impl.hpp:348-352, run by the destructor *)
Definition destroy (v : vec) : option (list (option T)) := uninit_destroy (v_mem v) 0 (v_size v).

(* Vector(Vector&&) and operator=(Vector&&): vector.hpp:284-289, 324-330 and
   move: impl/vector_impl.hpp:116-134.  The destination has just been reset to its static
   memory of N elements.  The result is the destination and what is left of the source. *)
Definition move_from (N : nat) (other : vec) : option (vec * vec) :=
  if negb (v_owned other) then
    let? mm := uninit_safe_move (v_mem other) 0 (v_size other) (repeat None N) 0 in
    Some (Vec false (snd mm) (v_capacity other) (v_size other), Vec false (fst mm) 0 0)
  else
    Some (Vec true (v_mem other) (v_capacity other) (v_size other), Vec false [] 0 0).

End Vector.
