(* Model of matrices: LU decomposition, inversion and determinant
   (src/archon/math/matrix.hpp).

   The scalar type is any type with the needed operations (see ops).  The theorems are
   about exact arithmetic: rounding is not modelled.  A matrix is a list of rows.  None
   stands for access outside of an array.  Numbers of rows and columns, and indexes, are
   natural numbers. *)
From Coq Require Import Arith Bool List.
From Verif Require Import ArrLib.
Import ListNotations.

(* Operations of the scalar type *)
Record ops := Ops {
  scalar : Type;
  zero : scalar;
  one : scalar;
  add : scalar -> scalar -> scalar;
  mul : scalar -> scalar -> scalar;
  sub : scalar -> scalar -> scalar;
  opp : scalar -> scalar;
  div : scalar -> scalar -> scalar;
  eqb : scalar -> scalar -> bool;
  lt : scalar -> scalar -> bool }.

Section Matrix.
  Variable T : ops.
  Notation F := (scalar T).
  Notation "x + y" := (add T x y).
  Notation "x * y" := (mul T x y).
  Notation "x - y" := (sub T x y).
  Notation "- x" := (opp T x).
  Notation "x / y" := (div T x y).

  Definition matrix := list (list F).
  Definition vector := list F.

  (* mat[i][j]: matrix.hpp:632-643 and vector.hpp:366-377 *)
  Definition mget (mat : matrix) (i j : nat) : option F := let? row := nth_error mat i in nth_error row j.

  (* mat[i][j] = x *)
  Definition mset (mat : matrix) (i j : nat) (x : F) : option matrix :=
    let? row := nth_error mat i in
    let? row := set_nth row j x in
    set_nth mat i row.

  (* for (int k = i; k < i + n; ++k) body *)
  Fixpoint up {S} (i n : nat) (body : nat -> S -> option S) (s : S) : option S :=
    match n with
    | O => Some s
    | Datatypes.S n => let? s := body i s in up (Datatypes.S i) n body s
    end.

  (* for (int k = i; k < n; ++k) body *)
  Definition loop {S} (i n : nat) (body : nat -> S -> option S) (s : S) : option S := up i (Nat.sub n i) body s.

  (* for (int k = n; k > 0; --k) body *)
  Fixpoint loop_down {S} (n : nat) (body : nat -> S -> option S) (s : S) : option S :=
    match n with
    | O => Some s
    | Datatypes.S m => let? s := body n s in loop_down m body s
    end.

  (* core::abs: math.hpp:152-155 *)
  Definition abs (x : F) : F := if lt T x (zero T) then - x else x.

  (* decompose: matrix.hpp:1114-1158.  M rows and N columns. *)

  (* 1121-1130 *)
  Definition find_pivot (M : nat) (mat : matrix) (j : nat) : option (nat * F) :=
    let? x := mget mat j j in
    loop (Nat.add j 1) M (fun i s =>
      let? x := mget mat i j in
      let w := abs x in
      if lt T (snd s) w then Some (i, w) else Some s) (j, abs x).

  (* 1133-1145 *)
  Definition apply_pivot (M : nat) (mat : matrix) (j p : nat) (v : F) : option matrix :=
    if negb (eqb T v (zero T)) then
      let? row := nth_error mat j in
      let? row_p := nth_error mat p in
      let? mat := set_nth mat j row_p in
      let? mat := set_nth mat p row in
      if Nat.add j 1 <? M then
        let? d := mget mat j j in
        let v := one T / d in
        loop (Nat.add j 1) M (fun i mat =>
          let? x := mget mat i j in
          mset mat i j (x * v)) mat
      else Some mat
    else Some mat.

  (* 1148-1154 *)
  Definition update_trailing (M N : nat) (mat : matrix) (j : nat) : option matrix :=
    if Nat.add j 1 <? N then
      loop (Nat.add j 1) M (fun i mat =>
        let? a := mget mat i j in
        loop (Nat.add j 1) N (fun k mat =>
          let? x := mget mat i k in
          let? y := mget mat j k in
          mset mat i k (x - a * y)) mat) mat
    else Some mat.

  Definition decompose (M N : nat) (mat : matrix) : option (matrix * list nat) :=
    let n := Nat.min M N in
    loop 0 n (fun j s =>
      let? (p, v) := find_pivot M (fst s) j in
      let? pivots := set_nth (snd s) j p in
      let? mat := apply_pivot M (fst s) j p v in
      let? mat := update_trailing M N mat j in
      Some (mat, pivots)) (mat, repeat 0%nat n).

  (* A loop that may return from the function: the value that it returns, or else the state
     at the end of the loop *)
  Fixpoint up_ret {S R} (i n : nat) (body : nat -> S -> option (S + R)) (s : S) : option (S + R) :=
    match n with
    | O => Some (inl s)
    | Datatypes.S n =>
      let? r := body i s in
      match r with
      | inl s => up_ret (Datatypes.S i) n body s
      | inr r => Some (inr r)
      end
    end.
  Definition loop_ret {S R} (i n : nat) (body : nat -> S -> option (S + R)) (s : S) : option (S + R) :=
    up_ret i (Nat.sub n i) body s.

  (* The state is the matrix, and the result is the returned value and the matrix *)
  Definition finish (r : option (matrix + (bool * matrix))) : option (bool * matrix) :=
    let? r := r in
    match r with
    | inl mat => Some (true, mat)
    | inr r => Some r
    end.

  (* try_upper_tri_inv: matrix.hpp:1089-1111 *)
  Definition upper_column (assume_unitri : bool) (mat : matrix) (j : nat) (x : F) : option matrix :=
    loop 0 j (fun i mat =>
      let? y := mget mat i j in
      let? y := (if negb assume_unitri then let? d := mget mat i i in Some (y * d) else Some y) in
      let? y := loop (Nat.add i 1) j (fun k y =>
        let? a := mget mat i k in
        let? b := mget mat k j in
        Some (y + a * b)) y in
      mset mat i j (x * y)) mat.
  Definition try_upper_tri_inv (assume_unitri : bool) (N : nat) (mat : matrix) : option (bool * matrix) :=
    finish (loop_ret 0 N (fun j mat =>
      if negb assume_unitri then
        let? x := mget mat j j in
        if eqb T x (zero T) then Some (inr (false, mat))
        else
          let x := one T / x in
          let? mat := mset mat j j x in
          let x := - x in
          let? mat := upper_column assume_unitri mat j x in
          Some (inl mat)
      else
        let? mat := upper_column assume_unitri mat j (- one T) in
        Some (inl mat)) mat).

  (* try_lower_tri_inv: matrix.hpp:1064-1086 *)
  Definition lower_row (assume_unitri : bool) (mat : matrix) (i : nat) (x : F) : option matrix :=
    loop 0 i (fun j mat =>
      let? y := mget mat i j in
      let? y := (if negb assume_unitri then let? d := mget mat j j in Some (y * d) else Some y) in
      let? y := loop (Nat.add j 1) i (fun k y =>
        let? a := mget mat k j in
        let? b := mget mat i k in
        Some (y + a * b)) y in
      mset mat i j (x * y)) mat.
  Definition try_lower_tri_inv (assume_unitri : bool) (N : nat) (mat : matrix) : option (bool * matrix) :=
    finish (loop_ret 0 N (fun i mat =>
      if negb assume_unitri then
        let? x := mget mat i i in
        if eqb T x (zero T) then Some (inr (false, mat))
        else
          let x := one T / x in
          let? mat := mset mat i i x in
          let x := - x in
          let? mat := lower_row assume_unitri mat i x in
          Some (inl mat)
      else
        let? mat := lower_row assume_unitri mat i (- one T) in
        Some (inl mat)) mat).

  (* get_col and set_col: matrix.hpp:727-744.  M rows *)
  Definition get_col (M : nat) (mat : matrix) (j : nat) : option vector :=
    loop 0 M (fun i col =>
      let? x := mget mat i j in
      set_nth col i x) (repeat (zero T) M).
  Definition set_col (M : nat) (mat : matrix) (j : nat) (col : vector) : option matrix :=
    loop 0 M (fun i mat =>
      let? x := nth_error col i in
      mset mat i j x) mat.

  (* try_inv: matrix.hpp:1023-1061 *)

  (* 1031-1044 *)
  Definition solve_lower (N : nat) (mat : matrix) : option matrix :=
    loop_down (Nat.sub N 1) (fun j mat =>
      let? col := get_col N mat (Nat.sub j 1) in
      loop 0 N (fun i mat =>
        let? sum := loop j N (fun k sum =>
          let? a := mget mat i k in
          let? b := nth_error col k in
          Some (sum + a * b)) (zero T) in
        if j <=? i then mset mat i (Nat.sub j 1) (- sum)
        else
          let? x := mget mat i (Nat.sub j 1) in
          mset mat i (Nat.sub j 1) (x - sum)) mat) mat.

  (* 1048-1055 *)
  Definition undo_pivots (N : nat) (mat : matrix) (pivots : list nat) : option matrix :=
    loop_down (Nat.sub N 1) (fun j mat =>
      let? p := nth_error pivots (Nat.sub j 1) in
      if negb (p =? Nat.sub j 1)%nat then
        let? col := get_col N mat (Nat.sub j 1) in
        let? col_p := get_col N mat p in
        let? mat := set_col N mat (Nat.sub j 1) col_p in
        set_col N mat p col
      else Some mat) mat.

  Definition try_inv (N : nat) (mat : matrix) : option (bool * matrix) :=
    let? (mat, pivots) := decompose N N mat in
    let? (regular, mat) := try_upper_tri_inv false N mat in
    if (regular : bool) then
      let? mat := solve_lower N mat in
      let? mat := undo_pivots N mat pivots in
      Some (true, mat)
    else Some (false, mat).

  (* inv: matrix.hpp:939-947 *)
  Definition inv (N : nat) (a : matrix) : option matrix :=
    let? (ok, b) := try_inv N a in
    if (ok : bool) then Some b else Some (repeat (repeat (zero T) N) N).

  (* det: matrix.hpp:922-936 *)
  Definition det (N : nat) (a : matrix) : option F :=
    let? (b, pivots) := decompose N N a in
    let? n := loop 0 N (fun i n =>
      let? p := nth_error pivots i in
      if negb (p =? i)%nat then Some (Nat.add n 1) else Some n) 0%nat in
    let? c := loop 0 N (fun i c =>
      let? x := mget b i i in
      Some (c * x)) (one T) in
    Some (if (Nat.modulo n 2 =? 0)%nat then c else - c).

  (* inner(Vector, Vector): vector.hpp:613-622 *)
  Definition inner (N : nat) (a b : vector) : option F :=
    loop 0 N (fun i c =>
      let? x := nth_error a i in
      let? y := nth_error b i in
      Some (c + x * y)) (zero T).

  (* inner(Vector, Matrix): matrix.hpp:992-1000 *)
  Definition inner_vm (M N : nat) (a : vector) (b : matrix) : option vector :=
    loop 0 N (fun i c =>
      let? col := get_col M b i in
      let? x := inner M a col in
      set_nth c i x) (repeat (zero T) N).

  (* inner(Matrix, Matrix): matrix.hpp:1003-1011, and the operator *: matrix.hpp:872-877 *)
  Definition inner_mm (M N P : nat) (a b : matrix) : option matrix :=
    loop 0 M (fun i c =>
      let? row := nth_error a i in
      let? x := inner_vm N P row b in
      set_nth c i x) (repeat (repeat (zero T) P) M).

  (* operator /(Matrix, Matrix): matrix.hpp:898-903 *)
  Definition mat_div (M N : nat) (a b : matrix) : option matrix :=
    let? c := inv N b in
    inner_mm M N N a c.
End Matrix.
