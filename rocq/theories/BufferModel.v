(* Model of core/buffer.hpp (Buffer) and of the growth policy of core/memory.hpp
   (C26-C28).

   The memory of the buffer (seed memory or an allocated array) is a list of elements;
   make_unique<T[]>(n) yields n default values.  Memory allocation failure
   (std::bad_alloc) is not modelled.  Sizes are elements of Z; every size_t subtraction
   or addition that could wrap is followed by an explicit reduction modulo 2^W, where W
   is the width of size_t.  UB is undefined behaviour or a failed assertion. *)
From Coq Require Import ZArith List Bool.
Import ListNotations.
Open Scope Z_scope.

Inductive outcome (A : Type) :=
| Done (a : A)
| Throw (a : A)      (* an exception is thrown; a is the state left behind *)
| UB.
Arguments Done {A} a. Arguments Throw {A} a. Arguments UB {A}.

Section Buffer.
Context (W : Z) {T : Type} (dflt : T).

Definition size_max : Z := 2 ^ W - 1.
Definition usize (x : Z) : Z := x mod 2 ^ W.

(* suggest_new_buffer_size: memory.hpp:253-272.  None is a failed assertion. *)
Definition suggest_new_buffer_size (cur_size min_size max_size : Z) : option Z :=
  if negb (cur_size <=? max_size) then None
  else if negb (min_size <=? max_size) then None
  else
    let new_size := cur_size in
    if min_size <=? new_size then Some new_size
    else
      let half := new_size / 2 in
      if half <=? usize (max_size - new_size) then
        let new_size := usize (new_size + half) in
        if min_size <=? new_size then Some new_size else Some min_size
      else Some max_size.

(* std::copy_n(src + from, n, dst + to): None if outside either array *)
Definition copy_n (src : list T) (from n : Z) (dst : list T) (to : Z) : option (list T) :=
  if (0 <=? from) && (0 <=? n) && (0 <=? to) &&
     (from + n <=? Z.of_nat (length src)) && (to + n <=? Z.of_nat (length dst)) then
    Some (firstn (Z.to_nat to) dst ++ firstn (Z.to_nat n) (skipn (Z.to_nat from) src)
          ++ skipn (Z.to_nat (to + n)) dst)
  else None.

(* std::fill_n(dst + to, n, val) *)
Definition fill_n (dst : list T) (to n : Z) (val : T) : option (list T) :=
  if (0 <=? to) && (0 <=? n) && (to + n <=? Z.of_nat (length dst)) then
    Some (firstn (Z.to_nat to) dst ++ repeat val (Z.to_nat n) ++ skipn (Z.to_nat (to + n)) dst)
  else None.

Definition bsize (mem : list T) : Z := Z.of_nat (length mem).

(* verify_index and at: buffer.hpp:422-435, 697-703 *)
Definition at_ (mem : list T) (i : Z) : outcome (option T) :=
  if i <=? bsize mem then
    match nth_error mem (Z.to_nat i) with Some x => Done (Some x) | None => UB end
  else Throw None.

(* do_reserve: buffer.hpp:706-720.  copy_func is passed the new memory and an extra
   state x (the captured offset of prepend), and returns both. *)
Definition do_reserve {X} (mem : list T) (x : X) (min_size min_extra_size : Z)
    (copy_func : list T -> option (list T * X)) (max_size : Z) : outcome (list T * X) :=
  if (min_size <=? max_size) && (min_extra_size <=? usize (max_size - min_size)) then
    match suggest_new_buffer_size (bsize mem) (usize (min_size + min_extra_size)) max_size with
    | None => UB
    | Some new_size =>
      match copy_func (repeat dflt (Z.to_nat new_size)) with
      | None => UB
      | Some r => Done r
      end
    end
  else Throw (mem, x).

(* reserve_extra_a: buffer.hpp:607-615 *)
Definition reserve_extra_a {X} (mem : list T) (x : X) (min_extra_size used_size : Z)
    (copy_func : list T -> option (list T * X)) (max_size : Z) : outcome (list T * X) :=
  if negb (used_size <=? bsize mem) then UB
  else if min_extra_size <=? usize (bsize mem - used_size) then Done (mem, x)
  else do_reserve mem x used_size min_extra_size copy_func max_size.

(* reserve_a: buffer.hpp:618-625 *)
Definition reserve_a {X} (mem : list T) (x : X) (min_size : Z)
    (copy_func : list T -> option (list T * X)) (max_size : Z) : outcome (list T * X) :=
  if min_size <=? bsize mem then Done (mem, x)
  else do_reserve mem x min_size 0 copy_func max_size.

Definition copy_front {X} (mem : list T) (x : X) (used_size : Z) (new_mem : list T) :
    option (list T * X) :=
  match copy_n mem 0 used_size new_mem 0 with Some m => Some (m, x) | None => None end.

(* reserve_extra: buffer.hpp:571-577 *)
Definition reserve_extra {X} (mem : list T) (x : X) (min_extra_size used_size max_size : Z) :=
  reserve_extra_a mem x min_extra_size used_size (copy_front mem x used_size) max_size.

(* reserve: buffer.hpp:580-586 *)
Definition reserve {X} (mem : list T) (x : X) (min_size used_size max_size : Z) :=
  reserve_a mem x min_size (copy_front mem x used_size) max_size.

(* expand_a: buffer.hpp:628-634; expand (589-593) passes 1 *)
Definition expand_a {X} (mem : list T) (x : X) (min_extra_size used_size max_size : Z) :=
  reserve_extra_a mem x min_extra_size (bsize mem) (copy_front mem x used_size) max_size.

(* assign: buffer.hpp:637-642.  data is memory outside the buffer. *)
Definition assign (mem data : list T) : outcome (list T) :=
  match reserve mem tt (bsize data) 0 size_max with
  | UB => UB
  | Throw (m, _) => Throw m
  | Done (m, _) =>
    match copy_n data 0 (bsize data) m 0 with Some m => Done m | None => UB end
  end.

(* assign_a: buffer.hpp:645-650 *)
Definition assign_a (mem : list T) (val : T) (n : Z) : outcome (list T) :=
  match reserve mem tt n 0 size_max with
  | UB => UB
  | Throw (m, _) => Throw m
  | Done (m, _) => match fill_n m 0 n val with Some m => Done m | None => UB end
  end.

(* append: buffer.hpp:653-659.  data is memory outside the buffer. *)
Definition append (mem : list T) (data : list T) (offset : Z) : outcome (list T * Z) :=
  match reserve_extra mem offset (bsize data) offset size_max with
  | UB => UB
  | Throw s => Throw s
  | Done (m, off) =>
    match copy_n data 0 (bsize data) m off with
    | Some m => Done (m, usize (off + bsize data))
    | None => UB
    end
  end.

(* append_a: buffer.hpp:662-668 *)
Definition append_a (mem : list T) (val : T) (offset n : Z) : outcome (list T * Z) :=
  match reserve_extra mem offset n offset size_max with
  | UB => UB
  | Throw s => Throw s
  | Done (m, off) =>
    match fill_n m off n val with
    | Some m => Done (m, usize (off + n))
    | None => UB
    end
  end.

(* the copy function of prepend and prepend_a: buffer.hpp:675-678, 688-691 *)
Definition copy_back (mem : list T) (offset used_size : Z) (new_mem : list T) : option (list T * Z) :=
  match copy_n mem offset used_size new_mem (usize (bsize new_mem - used_size)) with
  | Some m => Some (m, usize (offset + usize (bsize new_mem - bsize mem)))
  | None => None
  end.

(* prepend: buffer.hpp:671-681.  data is memory outside the buffer. *)
Definition prepend (mem : list T) (data : list T) (offset : Z) : outcome (list T * Z) :=
  let used_size := usize (bsize mem - offset) in
  match reserve_extra_a mem offset (bsize data) used_size (copy_back mem offset used_size) size_max with
  | UB => UB
  | Throw s => Throw s
  | Done (m, off) =>
    let off := usize (off - bsize data) in
    match copy_n data 0 (bsize data) m off with
    | Some m => Done (m, off)
    | None => UB
    end
  end.

(* prepend_a: buffer.hpp:684-694 *)
Definition prepend_a (mem : list T) (val : T) (offset n : Z) : outcome (list T * Z) :=
  let used_size := usize (bsize mem - offset) in
  match reserve_extra_a mem offset n used_size (copy_back mem offset used_size) size_max with
  | UB => UB
  | Throw s => Throw s
  | Done (m, off) =>
    let off := usize (off - n) in
    match fill_n m off n val with
    | Some m => Done (m, off)
    | None => UB
    end
  end.

(* Buffer(span_type, size) and Buffer(size): buffer.hpp:370-385 *)
Definition make_sized (seed : list T) (size : Z) : list T :=
  if size <=? bsize seed then firstn (Z.to_nat size) seed else repeat dflt (Z.to_nat size).

End Buffer.
