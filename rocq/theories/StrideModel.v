(* Model of stride iterators (core/stride_iterator.hpp) on a platform where std::size_t and std::ptrdiff_t have 64 bits *)
From Coq Require Import ZArith Bool List.
From Verif Require Import ArrLib.
Import ListNotations.
Local Open Scope Z_scope.

(* conversion to std::size_t, and from std::size_t to std::ptrdiff_t *)
Definition to_size (x : Z) : Z := x mod 2 ^ 64.
Definition to_diff (x : Z) : Z := if x <? 2 ^ 63 then x else x - 2 ^ 64.

(* The underlying iterator: either a pointer, or an object of a class with operators that take std::ptrdiff_t.  It is
   represented by the position in an array of len elements. *)
Inductive kind := Pointer | Class.

Section Stride.
Context (kd : kind) (len : Z) (S : Z).

(* The value by which the underlying iterator is moved when the operand has type std::size_t.  The operand is converted when
   the iterator is of class type, but not when it is a pointer. *)
Definition operand (x : Z) : Z := match kd with Pointer => x | Class => to_diff x end.

(* addition to, and subtraction from the underlying iterator; None if the result is not in the array, in which case
   behaviour is undefined *)
Definition check (pos : Z) : option Z := if (0 <=? pos) && (pos <=? len) then Some pos else None.
Definition iter_add (pos x : Z) : option Z := check (pos + operand x).
Definition iter_sub (pos x : Z) : option Z := check (pos - operand x).

(* operator++, operator--: stride_iterator.hpp:132-144, 148-162 (the iterator after the operation) *)
Definition stride_inc (m_iter : Z) : option Z := iter_add m_iter S.
Definition stride_dec (m_iter : Z) : option Z := iter_sub m_iter S.

(* operator+=, operator+: stride_iterator.hpp:166-171, 184-188, 256-260.  The multiplication is one of std::size_t. *)
Definition stride_add (m_iter i : Z) : option Z := iter_add m_iter (to_size (to_size i * S)).

(* operator-=, operator-: stride_iterator.hpp:175-180, 192-196 *)
Definition stride_sub (m_iter i : Z) : option Z := iter_sub m_iter (to_size (to_size i * S)).

(* operator[]: stride_iterator.hpp:124-128; the position of the element, which must be in the array *)
Definition stride_at (m_iter i : Z) : option Z :=
  let? pos := iter_add m_iter (to_size (to_size i * S)) in
  if pos <? len then Some pos else None.

(* operator-(const StrideIterator<J, S>&): stride_iterator.hpp:200-204.  The division is one of std::size_t. *)
Definition stride_diff (m_iter other : Z) : Z := to_diff (to_size (m_iter - other) / S).

(* operator==, operator<: stride_iterator.hpp:208-212, 224-228; the other comparison operators are similar *)
Definition stride_eq (m_iter other : Z) : bool := m_iter =? other.
Definition stride_less (m_iter other : Z) : bool := m_iter <? other.
End Stride.
