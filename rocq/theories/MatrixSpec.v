(* Independent specification for matrices: ordered fields, matrices as functions from
   indexes to scalars, products, triangular matrices, permutation matrices, and the
   determinant by expansion along the first column. *)
From Coq Require Import Arith List Field_theory.
From Verif Require Import MatrixModel.
Import ListNotations.

(* The operations are those of an ordered field *)
Record ordered_field (T : ops) : Prop := {
  of_field : field_theory (zero T) (one T) (add T) (mul T) (sub T) (opp T) (div T) (fun x => div T (one T) x) eq;
  of_eqb : forall x y, eqb T x y = true <-> x = y;
  of_irrefl : forall x, lt T x x = false;
  of_trans : forall x y z, lt T x y = true -> lt T y z = true -> lt T x z = true;
  of_total : forall x y, lt T x y = false -> lt T y x = false -> x = y;
  of_add : forall x y z, lt T x y = true -> lt T (add T x z) (add T y z) = true;
  of_mul : forall x y, lt T (zero T) x = true -> lt T (zero T) y = true -> lt T (zero T) (mul T x y) = true }.

Section Spec.
  Variable T : ops.
  Notation F := (scalar T).
  Notation fmat := (nat -> nat -> F).

  (* A list of M rows with N elements each, and its elements *)
  Definition is_matrix (M N : nat) (m : list (list F)) : Prop := length m = M /\ Forall (fun r => length r = N) m.
  Definition entry (m : list (list F)) : fmat := fun i j => nth j (nth i m []) (zero T).

  (* f 0 + ... + f (n - 1) and f 0 * ... * f (n - 1) *)
  Fixpoint sum (n : nat) (f : nat -> F) : F :=
    match n with O => zero T | S n => add T (sum n f) (f n) end.
  Fixpoint prod (n : nat) (f : nat -> F) : F :=
    match n with O => one T | S n => mul T (prod n f) (f n) end.

  (* Equality of matrices with M rows and N columns *)
  Definition meq (M N : nat) (a b : fmat) : Prop := forall i j, i < M -> j < N -> a i j = b i j.
  (* Product of matrices, n being the number of columns of the first one *)
  Definition mmul (n : nat) (a b : fmat) : fmat := fun i j => sum n (fun k => mul T (a i k) (b k j)).
  Definition ident : fmat := fun i j => if i =? j then one T else zero T.

  (* The triangular matrices stored in a matrix; with ones on the diagonal or not *)
  Definition upper (unitri : bool) (b : fmat) : fmat := fun i j =>
    if i =? j then (if unitri then one T else b i j) else if i <? j then b i j else zero T.
  Definition lower (unitri : bool) (b : fmat) : fmat := fun i j =>
    if i =? j then (if unitri then one T else b i j) else if j <? i then b i j else zero T.

  (* Transpositions, their permutation matrices, and the product of these, as in the
     documentation of decompose(): matrix.hpp:590-608.  n is the number of rows and k is
     the index of the first transposition. *)
  Definition perm (k p : nat) (i : nat) : nat := if i =? p then k else if i =? k then p else i.
  Definition perm_matrix (k p : nat) : fmat := fun i j => if perm k p j =? i then one T else zero T.
  Fixpoint perm_product (n k : nat) (pivots : list nat) : fmat :=
    match pivots with
    | [] => ident
    | p :: pivots => mmul n (perm_matrix k p) (perm_product n (S k) pivots)
    end.

  (* Determinant *)
  Definition minor (r : nat) (a : fmat) : fmat := fun i j => a (if i <? r then i else S i) (S j).
  Fixpoint determinant (n : nat) (a : fmat) : F :=
    match n with
    | O => one T
    | S n => sum (S n) (fun i =>
        let t := mul T (a i 0) (determinant n (minor i a)) in
        if Nat.even i then t else opp T t)
    end.

  (* Singular: there is a vector other than zero that is mapped to zero *)
  Definition singular (n : nat) (a : fmat) : Prop :=
    exists x : nat -> F, (exists i, i < n /\ x i <> zero T) /\
    forall i, i < n -> sum n (fun k => mul T (a i k) (x k)) = zero T.
  (* Inverse on both sides *)
  Definition inverse (n : nat) (a b : fmat) : Prop :=
    meq n n (mmul n a b) ident /\ meq n n (mmul n b a) ident.
End Spec.
