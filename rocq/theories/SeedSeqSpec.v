(* std::seed_seq::generate() as defined by the C++ standard, [rand.util.seedseq] paragraph 8.
   The output range is a function of the index; all arithmetic is modulo 2^32. *)
From Coq Require Import ZArith List.
Import ListNotations.
Open Scope Z_scope.

Definition B32 : Z := 2 ^ 32.

(* x[k] = v, and x[k], for any integer k: indexes are modulo n *)
Definition upd (n : Z) (x : Z -> Z) (k v : Z) : Z -> Z := fun j => if j =? k mod n then v else x j.
Definition at_ (n : Z) (x : Z -> Z) (k : Z) : Z := x (k mod n).

Definition T27 (x : Z) : Z := Z.lxor x (x / 2 ^ 27).

Section Standard.
Context (n : Z) (v : list Z).
Let s := Z.of_nat (length v).
Let t := if n >=? 623 then 11 else if n >=? 68 then 7 else if n >=? 39 then 5
         else if n >=? 7 then 3 else (n - 1) / 2.
Let p := (n - t) / 2.
Let q := p + t.
Let m := Z.max (s + 1) n.

(* Paragraph 8.2: k = 0, ..., m - 1 *)
Definition std_step_1 (k : Z) (x : Z -> Z) : Z -> Z :=
  let r1 := (1664525 * T27 (Z.lxor (Z.lxor (at_ n x k) (at_ n x (k + p))) (at_ n x (k - 1)))) mod B32 in
  let r2 := (r1 + (if k =? 0 then s
                   else if k <=? s then k mod n + nth (Z.to_nat (k - 1)) v 0
                   else k mod n)) mod B32 in
  let x := upd n x (k + p) ((at_ n x (k + p) + r1) mod B32) in
  let x := upd n x (k + q) ((at_ n x (k + q) + r2) mod B32) in
  upd n x k r2.

(* Paragraph 8.3: k = m, ..., m + n - 1 *)
Definition std_step_2 (k : Z) (x : Z -> Z) : Z -> Z :=
  let r3 := (1566083941 * T27 ((at_ n x k + at_ n x (k + p) + at_ n x (k - 1)) mod B32)) mod B32 in
  let r4 := (r3 - k mod n) mod B32 in
  let x := upd n x (k + p) (Z.lxor (at_ n x (k + p)) r3) in
  let x := upd n x (k + q) (Z.lxor (at_ n x (k + q)) r4) in
  upd n x k r4.

(* f (k + count - 1) (... (f k x)) *)
Fixpoint std_iter (f : Z -> (Z -> Z) -> Z -> Z) (count : nat) (k : Z) (x : Z -> Z) : Z -> Z :=
  match count with
  | O => x
  | S count => std_iter f count (k + 1) (f k x)
  end.

Definition std_final : Z -> Z :=
  std_iter std_step_2 (Z.to_nat n) m (std_iter std_step_1 (Z.to_nat m) 0 (fun _ => 2341178251)).
End Standard.

Definition std_generate (v : list Z) (num : nat) : list Z :=
  map (fun i => std_final (Z.of_nat num) v (Z.of_nat i)) (seq 0 num).
