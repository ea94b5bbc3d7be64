(* Model of Perlin noise (src/archon/util/perlin_noise.hpp) for any number of dimensions.

   Simplifications: floating point values are rational numbers, and arithmetic is exact (no rounding, no NaN, no infinities); std::size_t has 64 bits;
   the gradients are given (init_gradients() fills them with unit vectors); core::float_less_int() is comparison of numbers. *)
From Coq Require Import ZArith QArith Qround List Bool.
From Verif Require Import ArrLib.
Import ListNotations.
Local Open Scope Z_scope.

(* PerlinNoiseBase::Interp: 58-62 *)
Inductive interp := Linear | Smooth | Smoother.

Definition u64 (z : Z) : Z := z mod 2 ^ 64.

(* num_gradients(): 204-217.  None is an exception. *)
Fixpoint num_gradients_from (n : Z) (grid_size : list Z) : option Z :=
  match grid_size with
  | [] => Some n
  | s :: rest =>
    if s <? 1 then None else
    let m := s + 1 in
    if 2 ^ 64 <=? m then None else
    if 2 ^ 64 <=? n * m then None else
    num_gradients_from (n * m) rest
  end.
Definition num_gradients (grid_size : list Z) : option Z := num_gradients_from 1 grid_size.

(* Data members, one record per dimension: 186-188 *)
Record axis := Axis { a_size : Z; a_inv : Q; a_pos : Q }.

(* Constructor: 244-253 *)
Definition make_axis (size : Z) (gauge pos : Q) : axis := Axis size (1 / gauge) pos.

(* 265-278: fractional part and integer part *)
Definition split_coord (a : axis) (pos : Q) : Q * Z :=
  let val_1 := ((pos - a_pos a) * a_inv a)%Q in
  if Qle_bool 0 val_1 then
    if negb (Qle_bool (inject_Z (a_size a)) val_1) then
      let val := Qfloor val_1 in
      ((val_1 - inject_Z val)%Q, val)
    else
      (1%Q, a_size a - 1)
  else
    (0%Q, 0).

(* 259-285: components of vec, index_shifts, and index.  None is a failed assertion, or a position with the wrong number of components. *)
Fixpoint locate (axes : list axis) (pos : list Q) (index multiplier : Z) : option (list Q * list Z * Z) :=
  match axes, pos with
  | [], [] => Some ([], [], index)
  | a :: axes, p :: pos =>
    let '(val_2, val_3) := split_coord a p in
    if (0 <=? val_3) && (val_3 <? a_size a) then
      let? (vec, shifts, index') := locate axes pos (u64 (index + u64 (multiplier * val_3))) (u64 (multiplier * u64 (a_size a + 1))) in
      Some (val_2 :: vec, multiplier :: shifts, index')
    else None
  | _, _ => None
  end.

(* math::dot(): vector.hpp:557-561 *)
Fixpoint dot (a b : list Q) : Q :=
  match a, b with
  | x :: a, y :: b => (x * y + dot a b)%Q
  | _, _ => 0%Q
  end.

Definition bit (b : bool) : Q := if b then 1%Q else 0%Q.

(* vec - vec_shift: 295 *)
Fixpoint offset (vec : list Q) (shift : list bool) : list Q :=
  match vec, shift with
  | t :: vec, b :: shift => (t - bit b)%Q :: offset vec shift
  | _, _ => []
  end.

(* core::lerp(): math.hpp:209-213 *)
Definition lerp (a b t : Q) : Q := ((1 - t) * a + t * b)%Q.

(* interpolate(): 324-340 *)
Definition interpolate (i : interp) (a b t : Q) : Q :=
  let u := match i with
    | Linear => t
    | Smooth => ((3 - t * 2) * t * t)%Q
    | Smoother => ((t * (t * 6 - 15) + 10) * t * t * t)%Q
    end in
  lerp a b u.

Section Noise.
  Variable i : interp.
  Variable gradients : list (list Q).
  Variable vec : list Q.
  Variable index_shifts : list Z.

  (* 295.  None is an access out of bounds. *)
  Definition at_corner (index : Z) (shift : list bool) : option Q :=
    if index <? 0 then None else
    let? g := nth_error gradients (Z.to_nat index) in
    Some (dot g (offset vec shift)).

  (* 293-312, from label leave.  The components of vec_shift are 0 or 1 (booleans).  Elements of stack are indeterminate (None) until they are assigned.
     None is an access out of bounds, use of an indeterminate value, or too little fuel. *)
  Fixpoint leave (fuel : nat) (index : Z) (shift : list bool) (dim : nat) (val : Q) (stack : list (option Q)) : option Q :=
    match fuel with
    | O => None
    | S fuel =>
      if (dim <? length vec)%nat then
        let? b := nth_error shift dim in
        let? k := nth_error index_shifts dim in
        if negb b then
          let? stack' := set_nth stack dim (Some val) in
          let index' := u64 (index + k) in
          let? shift' := set_nth shift dim true in
          let? val' := at_corner index' shift' in
          leave fuel index' shift' 0 val' stack'
        else
          let index' := u64 (index - k) in
          let? shift' := set_nth shift dim false in
          let? a := nth_error stack dim in
          let? a := a in
          let? t := nth_error vec dim in
          leave fuel index' shift' (S dim) (interpolate i a val t) stack
      else Some val
    end.
End Noise.

(* operator(): 256-312 *)
Definition noise (i : interp) (gradients : list (list Q)) (axes : list axis) (pos : list Q) : option Q :=
  let? (vec, shifts, index) := locate axes pos 0 1 in
  let n := length axes in
  let? val := at_corner gradients vec index (repeat false n) in
  leave i gradients vec shifts (2 ^ (n + 2)) index (repeat false n) 0 val (repeat None n).

(* operator() with a range: 315-321.  amplitude is the result of amplitude(), 237-241. *)
Definition noise_in_range (i : interp) (gradients : list (list Q)) (axes : list axis) (amplitude : Q) (pos : list Q) (from to : Q) : option Q :=
  let? v := noise i gradients axes pos in
  let val := ((1 + v / amplitude) / 2)%Q in
  Some (from + val * (to - from))%Q.
