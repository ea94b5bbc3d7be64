(* Model of the comparison and conversion between floating-point and integer values: core/float.hpp.

   A floating-point type has radix 2, a precision of p bits, 2^-k as its smallest positive value (a subnormal one), and
   fmax * 2^-k as its greatest finite value.  A finite value is represented by the integer n for which it is n * 2^-k.
   Positive and negative zero are not distinguished (they are not by comparisons and conversions to integers). *)
From Coq Require Import ZArith Bool.
From Verif Require Import CInt IntModel ArrLib.
Open Scope Z_scope.

Inductive flt :=
| NaN
| Inf (negative : bool)
| Fin (n : Z).

(* a < b and a <= b of IEEE 754 *)
Definition flt_lt (a b : flt) : bool :=
  match a, b with
  | NaN, _ | _, NaN => false
  | Inf x, Inf y => x && negb y
  | Inf x, Fin _ => x
  | Fin _, Inf y => negb y
  | Fin x, Fin y => x <? y
  end.

Definition flt_le (a b : flt) : bool :=
  match a, b with
  | NaN, _ | _, NaN => false
  | Inf x, Inf y => x || negb y
  | Inf x, Fin _ => x
  | Fin _, Inf y => negb y
  | Fin x, Fin y => x <=? y
  end.

(* short-circuiting operators, where None is undefined behaviour *)
Definition and_also (a : bool) (b : option bool) : option bool := if a then b else Some false.
Definition or_else (a : bool) (b : option bool) : option bool := if a then Some true else b.

Section Format.
Context (p k fmax : Z).
(* conversion from integer to floating-point type, see core/float_traits.hpp:112-119 *)
Context (of_int : Z -> flt).

(* the spacing of floating-point values just below and at x, x >= 0, unless x is a power of two *)
Definition ulp (x : Z) : Z := 2 ^ Z.max 0 (Z.log2 x + 1 - p).

(* the greatest representable value not above x, for x >= 0 *)
Definition round_down (x : Z) : Z := x / ulp x * ulp x.

(* FloatTraits::nextafter(from, 0): core/float_traits.hpp:155-160, std::nextafter() *)
Definition nextafter_0 (from : flt) : flt :=
  match from with
  | NaN => NaN
  | Inf negative => Fin (if negative then - fmax else fmax)
  | Fin n =>
    if n =? 0 then Fin 0
    else if 0 <? n then Fin (round_down (n - 1))
    else Fin (- round_down (- n - 1))
  end.

(* f / r where r is the radix, which is 2.  An inexact result (only with subnormal values) is rounded to even. *)
Definition div_radix (f : flt) : flt :=
  match f with
  | Fin n => Fin (if Z.even n then n / 2 else if n mod 4 =? 1 then (n - 1) / 2 else (n + 1) / 2)
  | _ => f
  end.

(* conversion to integer type t: core/float_traits.hpp:105-110 *)
Definition to_int (t : ity) (f : flt) : option Z :=
  match f with
  | Fin n =>
    let v := Z.quot n (2 ^ k) in
    if in_rangeb t v then Some v else None
  | _ => None
  end.

(* float_to_int_a: core/float.hpp:386-396; bool is an unsigned type of width 1 *)
Definition float_to_int_a (t : ity) (val : flt) : option Z :=
  let? v := to_int (promo t) val in
  Some (int_cast_a t v).

(* min_float_not_below_nonpos_int: core/float.hpp:413-435.  None if the assertion fails, or if behaviour is undefined. *)
Definition min_float_not_below_nonpos_int (t : ity) (i : Z) : option flt :=
  if negb (i <=? 0) then None else
  let f := of_int i in
  let? not_below := or_else (-1 <=? i)
    (let? q := to_int (promo t) (div_radix f) in Some (Z.quot i 2 <=? q)) in
  if not_below : bool then Some f
  else Some (nextafter_0 f).

(* max_float_not_above_nonneg_int: core/float.hpp:438-529 *)
Definition max_float_not_above_nonneg_int (t : ity) (i : Z) : option flt :=
  if negb (0 <=? i) then None else
  let f := of_int i in
  let? not_above := or_else (i <=? 1)
    (let? q := to_int (promo t) (div_radix f) in Some (q <=? Z.quot i 2)) in
  if not_above : bool then Some f
  else Some (nextafter_0 f).

(* min_float_for_int: core/float.hpp:399-403 *)
Definition min_float_for_int (t : ity) : option flt := min_float_not_below_nonpos_int t (imin t).

(* max_float_for_int: core/float.hpp:406-410 *)
Definition max_float_for_int (t : ity) : option flt := max_float_not_above_nonneg_int t (imax t).

(* std::trunc(float_val) == float_val *)
Definition is_integral (f : flt) : bool :=
  match f with
  | NaN => false
  | Inf _ => true
  | Fin n => Z.quot n (2 ^ k) * 2 ^ k =? n
  end.

(* float_equal_int: core/float.hpp:280-286.  Here, and in what follows, the functions that determine the limits are
   without side effects, and have no undefined behaviour, so it does not matter that they are evaluated up front. *)
Definition float_equal_int (t : ity) (float_val : flt) (int_val : Z) : option bool :=
  let? lo := min_float_for_int t in
  let? hi := max_float_for_int t in
  if flt_le lo float_val && flt_le float_val hi then
    and_also (is_integral float_val)
      (let? v := float_to_int_a t float_val in Some (v =? int_val))
  else Some false.

(* float_less_int: core/float.hpp:289-300 *)
Definition float_less_int (t : ity) (float_val : flt) (int_val : Z) : option bool :=
  let? lo := min_float_for_int t in
  let? hi := max_float_for_int t in
  if flt_lt float_val (Fin 0) then
    if isigned t then
      let float_val_2 := nextafter_0 float_val in
      or_else (flt_lt float_val lo)
        (let? v := float_to_int_a t float_val_2 in Some (v <=? int_val))
    else Some (flt_lt float_val (Fin 0))
  else
    and_also (flt_le float_val hi)
      (let? v := float_to_int_a t float_val in Some (v <? int_val)).

(* float_greater_int: core/float.hpp:303-314 *)
Definition float_greater_int (t : ity) (float_val : flt) (int_val : Z) : option bool :=
  let? lo := min_float_for_int t in
  let? hi := max_float_for_int t in
  if flt_lt (Fin 0) float_val then
    let float_val_2 := nextafter_0 float_val in
    or_else (flt_lt hi float_val)
      (let? v := float_to_int_a t float_val_2 in Some (int_val <=? v))
  else if isigned t then
    and_also (flt_le lo float_val)
      (let? v := float_to_int_a t float_val in Some (int_val <? v))
  else Some (flt_lt (Fin 0) float_val).

(* float_less_equal_int: core/float.hpp:317-328 *)
Definition float_less_equal_int (t : ity) (float_val : flt) (int_val : Z) : option bool :=
  let? lo := min_float_for_int t in
  let? hi := max_float_for_int t in
  if flt_le float_val (Fin 0) then
    if isigned t then
      or_else (flt_lt float_val lo)
        (let? v := float_to_int_a t float_val in Some (v <=? int_val))
    else Some (flt_le float_val (Fin 0))
  else
    let float_val_2 := nextafter_0 float_val in
    and_also (flt_le float_val hi)
      (let? v := float_to_int_a t float_val_2 in Some (v <? int_val)).

(* float_greater_equal_int: core/float.hpp:331-341 *)
Definition float_greater_equal_int (t : ity) (float_val : flt) (int_val : Z) : option bool :=
  let? lo := min_float_for_int t in
  let? hi := max_float_for_int t in
  if flt_le (Fin 0) float_val then
    or_else (flt_lt hi float_val)
      (let? v := float_to_int_a t float_val in Some (int_val <=? v))
  else if isigned t then
    let float_val_2 := nextafter_0 float_val in
    and_also (flt_le lo float_val)
      (let? v := float_to_int_a t float_val_2 in Some (int_val <? v))
  else Some (flt_le (Fin 0) float_val).

(* clamped_float_to_int: core/float.hpp:344-355 *)
Definition clamped_float_to_int (t : ity) (val : flt) : option Z :=
  let? lo := min_float_for_int t in
  let? hi := max_float_for_int t in
  if flt_le lo val then
    if flt_le val hi then float_to_int_a t val
    else Some (imax t)
  else if flt_lt val lo then Some (imin t)
  else Some 0.

(* try_float_to_int: core/float.hpp:358-367; Some None if false is returned, and int_val is left alone *)
Definition try_float_to_int (t : ity) (float_val : flt) : option (option Z) :=
  let? lo := min_float_for_int t in
  let? hi := max_float_for_int t in
  if flt_le lo float_val && flt_le float_val hi then
    let? v := float_to_int_a t float_val in
    Some (Some v)
  else Some None.
End Format.
