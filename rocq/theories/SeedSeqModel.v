(* Model of core::SeedSeq (src/archon/core/random.hpp and random.cpp).

   The initial seed sequence is a list of segments (m_seq_seq).  w is the width of the element
   type T of the output range (unsigned, at least as wide as int), and sw is the width of
   std::size_t.  Arithmetic on elements is in type T, or if a value of type std::size_t is
   involved, in the wider of the two (xw).  None is undefined behaviour (access out of bounds)
   or an overflow exception. *)
From Coq Require Import ZArith Bool List.
From Verif Require Import ArrLib.
Import ListNotations.
Open Scope Z_scope.

Definition modulus (n : Z) (x : Z) : Z := x mod 2 ^ n.
Definition xw (w sw : Z) : Z := if w <? sw then sw else w.

(* size: random.cpp:84-92 (and the check of no_copy_a, random.cpp:71-81): None is failure of
   try_int_add() *)
Fixpoint add_sizes (sw : Z) (size : Z) (segs : list (list Z)) : option Z :=
  match segs with
  | [] => Some size
  | seg :: rest =>
      let size := size + Z.of_nat (length seg) in
      if size <? 2 ^ sw then add_sizes sw size rest else None
  end.
Definition size (sw : Z) (segs : list (list Z)) : option Z := add_sizes sw 0 segs.

(* param: random.hpp:596-601 *)
Fixpoint param (segs : list (list Z)) : list Z :=
  match segs with
  | [] => []
  | seg :: rest => seg ++ param rest
  end.

(* mod: random.hpp:550-552 *)
Definition mod32 (val : Z) : Z := Z.land val (2 ^ 32 - 1).

(* random.hpp:542-548 *)
Definition gen_t (n : Z) : Z :=
  if 623 <=? n then 11 else if 68 <=? n then 7 else if 39 <=? n then 5 else if 7 <=? n then 3
  else (n - 1) / 2.
Definition gen_p (n : Z) : Z := (n - gen_t n) / 2.
Definition gen_q (n : Z) : Z := gen_p n + gen_t n.

Definition get (arr : list Z) (i : Z) : option Z := nth_error arr (Z.to_nat i).
Definition set (arr : list Z) (i : Z) (v : Z) : option (list Z) := set_nth arr (Z.to_nat i) v.

(* Index k + d, k - 1 of type std::size_t, modulo n *)
Definition idx (sw n k d : Z) : Z := modulus sw (k + d) mod n.

(* One iteration of integrate: random.hpp:557-563 *)
Definition integrate_step (w sw n : Z) (calc : Z -> Z -> Z -> option Z) (m i : Z) (arr : list Z) : option (list Z) :=
  let k := modulus sw (m + i) in
  let p := gen_p n in
  let q := gen_q n in
  let? a_1 := get arr (idx sw n k 0) in
  let? a_2 := get arr (idx sw n k p) in
  let? a_3 := get arr (idx sw n k (-1)) in
  let arg := Z.lxor (Z.lxor a_1 a_2) a_3 in
  let r_1 := modulus w (1664525 * Z.lxor arg (Z.shiftr (mod32 arg) 27)) in
  let? r_2 := calc r_1 k i in
  let? b_1 := get arr (idx sw n k p) in
  let? arr := set arr (idx sw n k p) (mod32 (modulus w (b_1 + r_1))) in
  let? b_2 := get arr (idx sw n k q) in
  let? arr := set arr (idx sw n k q) (mod32 (modulus (xw w sw) (b_2 + r_2))) in
  set arr (idx sw n k 0) (mod32 r_2).

(* integrate: random.hpp:555-566.  Iterations i, i + 1, ..., i + count - 1. *)
Fixpoint integrate_loop (w sw n : Z) calc (m i : Z) (count : nat) (arr : list Z) : option (list Z) :=
  match count with
  | O => Some arr
  | S count =>
      let? arr := integrate_step w sw n calc m i arr in
      integrate_loop w sw n calc m (i + 1) count arr
  end.
Definition integrate (w sw n : Z) (s : Z) calc (st : list Z * Z) : option (list Z * Z) :=
  let (arr, m) := st in
  let? arr := integrate_loop w sw n calc m 0 (Z.to_nat s) arr in
  if m + s <? 2 ^ sw then Some (arr, m + s) else None.

(* random.hpp:573-577 *)
Fixpoint integrate_segs (w sw n : Z) (segs : list (list Z)) (st : list Z * Z) : option (list Z * Z) :=
  match segs with
  | [] => Some st
  | seg :: rest =>
      let? st := integrate w sw n (Z.of_nat (length seg))
        (fun r k i => let? v := nth_error seg (Z.to_nat i) in
                      Some (modulus (xw w sw) (modulus (xw w sw) (r + k mod n) + v))) st in
      integrate_segs w sw n rest st
  end.

(* One iteration of the last loop: random.hpp:586-591 *)
Definition final_step (w sw n k : Z) (arr : list Z) : option (list Z) :=
  let p := gen_p n in
  let q := gen_q n in
  let? a_1 := get arr (idx sw n k 0) in
  let? a_2 := get arr (idx sw n k p) in
  let? a_3 := get arr (idx sw n k (-1)) in
  let arg := modulus w (modulus w (a_1 + a_2) + a_3) in
  let r_1 := modulus w (1566083941 * Z.lxor arg (Z.shiftr (mod32 arg) 27)) in
  let r_2 := modulus (xw w sw) (r_1 - k mod n) in
  let? b_1 := get arr (idx sw n k p) in
  let? arr := set arr (idx sw n k p) (mod32 (Z.lxor b_1 r_1)) in
  let? b_2 := get arr (idx sw n k q) in
  let? arr := set arr (idx sw n k q) (mod32 (Z.lxor b_2 r_2)) in
  set arr (idx sw n k 0) (mod32 r_2).

(* random.hpp:585-592: iterations while k < end *)
Fixpoint final_loop (fuel : nat) (w sw n k end_ : Z) (arr : list Z) : option (list Z) :=
  if k <? end_ then
    match fuel with
    | O => None
    | S fuel =>
        let? arr := final_step w sw n k arr in
        final_loop fuel w sw n (modulus sw (k + 1)) end_ arr
    end
  else Some arr.

(* generate: random.hpp:524-593.  num is the number of elements of the output range. *)
Definition generate (w sw : Z) (segs : list (list Z)) (num : nat) : option (list Z) :=
  match num with
  | O => Some []
  | _ =>
      let n := Z.of_nat num in
      let arr := repeat 2341178251 num in
      let? u := size sw segs in
      let? st := integrate w sw n 1 (fun r _ _ => Some (modulus (xw w sw) (r + u))) (arr, 0) in
      let? st := integrate_segs w sw n segs st in
      let m := snd st in
      let? st := if m <? n then
                   integrate w sw n (n - m) (fun r k _ => Some (modulus (xw w sw) (r + k mod n))) st
                 else Some st in
      let (arr, m) := st : list Z * Z in
      final_loop num w sw n m (modulus sw (m + n)) arr
  end.
