(* Model of the checked integer functions of /repo/src/archon/core/integer.hpp
   for builtin integer types (other than bool) of arbitrary width.

   A function template `f<T, F>(args)` becomes a Coq function that takes the
   type descriptors as arguments.  Results are `option`: None is undefined
   behaviour (signed overflow, division by zero, over-wide shift).
   ARCHON_LIKELY/UNLIKELY are branch hints and are dropped. *)

From Coq Require Import ZArith Bool List.
From Verif Require Import CInt.
Import ListNotations.
Open Scope Z_scope.

(* num_value_bits: integer.hpp:1019-1024 *)
Definition nvb (t : ity) : Z := if isigned t then iwidth t - 1 else iwidth t.

(* int_min, int_max: integer.hpp:1059-1072.  imin/imax of CInt are those of
   std::numeric_limits. *)

(* unsigned_type: integer.hpp:226 with integer_traits.hpp, for builtin types the
   unsigned type of the same width *)
Definition unsigned_type (t : ity) : ity := ITy (iwidth t) false.

(* CommonIntType: integer.hpp:940-987 (binary case).  For signed vs signed the
   C++ condition also compares the minimum values (lines 958-960); with two's
   complement (C++20) that reduces to the comparison of value bits used here. *)
Definition common2 (t u : ity) : ity :=
  if Bool.eqb (isigned t) (isigned u) then (if nvb u <=? nvb t then t else u)
  else if isigned t then (if nvb u <=? nvb t then t else u)
  else (if nvb t <=? nvb u then u else t).

(* CommonIntType with three types is right-nested: integer.hpp:982-984 *)
Definition common3 (t u v : ity) : ity := common2 t (common2 u v).

(* int_cast_a: integer.hpp:1236-1265, the branch for two builtin types (1250).
   to_unsigned (1011-1016) and promote_strongly (1004-1008) are instances. *)
Definition int_cast_a (t : ity) (v : Z) : Z := wrap t v.

(* promoted_type: integer.hpp:139 is CInt.promo.
   strongly_promoted_type: integer.hpp:150 *)
Definition strongly_promoted_type (t : ity) : ity := common2 t_int (promo t).

(* is_negative: integer.hpp:1154-1163 *)
Definition is_negative (t : ity) (v : Z) : bool := if isigned t then v <? 0 else false.

(* int_equal: integer.hpp:1553-1576 *)
Definition int_equal (A B : ity) (a b : Z) : bool :=
  let type := promo (common2 A B) in
  if negb (isigned A) then
    if negb (isigned B) then
      ceq (type, int_cast_a type a) (type, int_cast_a type b)
    else
      negb (is_negative B b) && ceq (type, int_cast_a type a) (type, int_cast_a type b)
  else
    if negb (isigned B) then
      negb (is_negative A a) && ceq (type, int_cast_a type a) (type, int_cast_a type b)
    else
      ceq (type, int_cast_a type a) (type, int_cast_a type b).

(* int_not_equal: integer.hpp:1579-1582 *)
Definition int_not_equal (A B : ity) (a b : Z) : bool := negb (int_equal A B a b).

(* int_less: integer.hpp:1585-1610 *)
Definition int_less (A B : ity) (a b : Z) : bool :=
  let type := promo (common2 A B) in
  if negb (isigned A) then
    if negb (isigned B) then
      clt (type, int_cast_a type a) (type, int_cast_a type b)
    else
      negb (is_negative B b) && clt (type, int_cast_a type a) (type, int_cast_a type b)
  else
    if negb (isigned B) then
      is_negative A a || clt (type, int_cast_a type a) (type, int_cast_a type b)
    else
      clt (type, int_cast_a type a) (type, int_cast_a type b).

(* int_less_equal, int_greater, int_greater_equal: integer.hpp:1613-1628 *)
Definition int_less_equal (A B : ity) (a b : Z) : bool := negb (int_less B A b a).
Definition int_greater (A B : ity) (a b : Z) : bool := int_less B A b a.
Definition int_greater_equal (A B : ity) (a b : Z) : bool := negb (int_less A B a b).

(* can_int_cast: integer.hpp:1220-1223 *)
Definition can_int_cast (T F : ity) (v : Z) : bool :=
  int_greater_equal F T v (imin T) && int_less_equal F T v (imax T).

(* try_int_cast: integer.hpp:1226-1233; `to` is the old value of the destination,
   the result is the returned bool and the new value of the destination *)
Definition try_int_cast (T F : ity) (from to : Z) : bool * Z :=
  if can_int_cast T F from then (true, int_cast_a T from) else (false, to).

(* int_cast_clamp with bounds: integer.hpp:1268-1276 *)
Definition int_cast_clamp (T F : ity) (v mn mx : Z) : Z :=
  if int_greater_equal F T v mn then
    if int_less_equal F T v mx then int_cast_a T v else mx
  else mn.

(* int_cast_clamp with default bounds: integer.hpp:1285-1288 *)
Definition int_cast_clamp_d (T F : ity) (v : Z) : Z := int_cast_clamp T F v (imin T) (imax T).

(* try_int_add, unsigned plus unsigned: integer.hpp:1719-1729 *)
Definition try_int_add_uu (L R : ity) (l r : Z) : option (bool * Z) :=
  let type := common3 t_uint L R in
  let l2 := int_cast_a type l in
  let r2 := int_cast_a type r in
  let* d := csub (type, int_cast_a type (imax L)) (type, l2) in
  if negb (cgt (type, r2) d) then
    let* s := cadd (type, l2) (type, r2) in
    Some (true, int_cast_a L (snd s))
  else Some (false, l).

(* try_int_add, signed plus signed: integer.hpp:1768-1782 *)
Definition try_int_add_ss (L R : ity) (l r : Z) : option (bool * Z) :=
  let type := common2 L R in
  let l2 := int_cast_a type l in
  let r2 := int_cast_a type r in
  let* overflow :=
    (if is_negative type r2 then
       let* d := csub (type, int_cast_a type (imin L)) (type, r2) in
       Some (clt (type, l2) d)
     else
       let* d := csub (type, int_cast_a type (imax L)) (type, r2) in
       Some (cgt (type, l2) d)) in
  if negb overflow then
    let* s := cadd (type, l2) (type, r2) in
    Some (true, int_cast_a L (snd s))
  else Some (false, l).

(* try_int_add: integer.hpp:1715-1785.  cast_from_twos_compl_a<L>(x) at 1761 is,
   for builtin types, the modular conversion to L (integer.hpp:1432-1453 with one
   part on each side copies the low bits). *)
Definition try_int_add (L R : ity) (l r : Z) : option (bool * Z) :=
  if negb (isigned L) then
    if negb (isigned R) then try_int_add_uu L R l r
    else
      (* unsigned plus signed: 1732-1744 *)
      if is_negative R r then
        let type := common3 t_uint L (unsigned_type R) in
        let l2 := int_cast_a type l in
        let* d := csub (R, wrap R (-1)) (R, r) in
        if negb (cge (type, int_cast_a type (snd d)) (type, l2)) then
          let* s := cadd (type, l2) (type, int_cast_a type r) in
          Some (true, int_cast_a L (snd s))
        else Some (false, l)
      else try_int_add_uu L (unsigned_type R) l (int_cast_a (unsigned_type R) r)
  else
    if negb (isigned R) then
      (* signed plus unsigned: 1749-1765 *)
      if nvb R <=? nvb L then try_int_add_ss L L l (int_cast_a L r)
      else
        let type := common2 t_uint R in
        let l2 := int_cast_a type l in
        let r2 := int_cast_a type r in
        let* d := csub (type, int_cast_a type (imax L)) (type, l2) in
        let max_add := wrap type (snd d) in
        if negb (cgt (type, r2) (type, max_add)) then
          let* s := cadd (type, l2) (type, r2) in
          Some (true, wrap L (snd s))
        else Some (false, l)
    else try_int_add_ss L R l r.

(* try_int_sub, unsigned minus unsigned: integer.hpp:1792-1802 *)
Definition try_int_sub_uu (L R : ity) (l r : Z) : option (bool * Z) :=
  let type := common3 t_uint L R in
  let l2 := int_cast_a type l in
  let r2 := int_cast_a type r in
  if negb (cgt (type, r2) (type, l2)) then
    let* s := csub (type, l2) (type, r2) in
    Some (true, int_cast_a L (snd s))
  else Some (false, l).

(* try_int_sub, signed minus signed: integer.hpp:1842-1856 *)
Definition try_int_sub_ss (L R : ity) (l r : Z) : option (bool * Z) :=
  let type := common2 L R in
  let l2 := int_cast_a type l in
  let r2 := int_cast_a type r in
  let* overflow :=
    (if is_negative type r2 then
       let* d := cadd (type, int_cast_a type (imax L)) (type, r2) in
       Some (cgt (type, l2) d)
     else
       let* d := cadd (type, int_cast_a type (imin L)) (type, r2) in
       Some (clt (type, l2) d)) in
  if negb overflow then
    let* s := csub (type, l2) (type, r2) in
    Some (true, int_cast_a L (snd s))
  else Some (false, l).

(* try_int_sub: integer.hpp:1788-1859 *)
Definition try_int_sub (L R : ity) (l r : Z) : option (bool * Z) :=
  if negb (isigned L) then
    if negb (isigned R) then try_int_sub_uu L R l r
    else
      (* unsigned minus signed: 1805-1818 *)
      if is_negative R r then
        let type := common3 t_uint L (unsigned_type R) in
        let l2 := int_cast_a type l in
        let* d := csub (R, wrap R (-1)) (R, r) in
        let* e := csub (type, int_cast_a type (imax L)) (type, l2) in
        if negb (cge (type, int_cast_a type (snd d)) e) then
          let* s := csub (type, l2) (type, int_cast_a type r) in
          Some (true, int_cast_a L (snd s))
        else Some (false, l)
      else try_int_sub_uu L (unsigned_type R) l (int_cast_a (unsigned_type R) r)
  else
    if negb (isigned R) then
      (* signed minus unsigned: 1823-1839 *)
      if nvb R <=? nvb L then try_int_sub_ss L L l (int_cast_a L r)
      else
        let type := common2 t_uint R in
        let l2 := int_cast_a type l in
        let r2 := int_cast_a type r in
        let* d := csub (type, l2) (type, int_cast_a type (imin L)) in
        let max_sub := wrap type (snd d) in
        if negb (cgt (type, r2) (type, max_sub)) then
          let* s := csub (type, l2) (type, r2) in
          Some (true, wrap L (snd s))
        else Some (false, l)
    else try_int_sub_ss L R l r.

(* try_int_mul: integer.hpp:1862-1951 *)
Definition try_int_mul (L R : ity) (l r : Z) : option (bool * Z) :=
  if negb (r =? 0) then
    let type := common3 t_int L R in
    if negb (is_negative R r) then
      if negb (is_negative L l) then
        (* non-negative times positive: 1869-1877 *)
        let l2 := int_cast_a type l in
        let r2 := int_cast_a type r in
        let* q := cdiv (type, int_cast_a type (imax L)) (type, r2) in
        let mx := wrap type (snd q) in
        if cle (type, l2) (type, mx) then
          let* p := cmul (type, l2) (type, r2) in
          Some (true, int_cast_a L (snd p))
        else Some (false, l)
      else
        (* negative times positive: 1880-1907 *)
        let r2 := int_cast_a type r in
        if isigned R then
          let l2 := int_cast_a type l in
          let* q := cdiv (type, int_cast_a type (imin L)) (type, r2) in
          let mn := wrap type (snd q) in
          if cge (type, l2) (type, mn) then
            let* p := cmul (type, l2) (type, r2) in
            Some (true, int_cast_a L (snd p))
          else Some (false, l)
        else
          if cle (type, r2) (type, int_cast_a type (imax L)) then
            let l2 := int_cast_a type l in
            let* q := cdiv (promo L, imin L) (promo L, int_cast_a L r) in
            let mn := int_cast_a type (snd q) in
            if cge (type, l2) (type, mn) then
              let* p := cmul (type, l2) (type, r2) in
              Some (true, int_cast_a L (snd p))
            else Some (false, l)
          else
            let* a := csub (type, r2) (type, 1) in
            let* b := csub (L, wrap L (-1)) (L, imin L) in
            if cle a (type, int_cast_a type (snd b)) then
              if l =? wrap L (-1) then Some (true, imin L) else Some (false, l)
            else Some (false, l)
    else
      if negb (is_negative L l) then
        (* non-negative times negative: 1912-1933 *)
        if isigned L then
          if negb (r =? wrap R (-1)) then
            let l2 := int_cast_a type l in
            let r2 := int_cast_a type r in
            let* q := cdiv (type, int_cast_a type (imin L)) (type, r2) in
            let mx := wrap type (snd q) in
            if cle (type, l2) (type, mx) then
              let* p := cmul (type, l2) (type, r2) in
              Some (true, int_cast_a L (snd p))
            else Some (false, l)
          else
            let* n := cneg (L, l) in
            Some (true, int_cast_a L (snd n))
        else
          if l =? 0 then Some (true, l) else Some (false, l)
      else
        (* negative times negative: 1936-1944 *)
        let l2 := int_cast_a type l in
        let r2 := int_cast_a type r in
        let* q := cdiv (type, int_cast_a type (imax L)) (type, r2) in
        let mn := wrap type (snd q) in
        if cge (type, l2) (type, mn) then
          let* p := cmul (type, l2) (type, r2) in
          Some (true, int_cast_a L (snd p))
        else Some (false, l)
  else Some (true, 0).

(* int_is_even/int_is_odd: integer.hpp:1166-1177 *)
Definition int_is_even (T : ity) (v : Z) : bool :=
  let t := strongly_promoted_type T in
  snd (cand (t, int_cast_a t v) (t, 1)) =? 0.
Definition int_is_odd (T : ity) (v : Z) : bool := negb (int_is_even T v).

(* try_int_pow, the loop for a non-negative exponent: integer.hpp:1961-1971.
   B and E are the (strongly promoted) types of base and exponent.  Fuel bounds
   the number of iterations; running out of fuel is None (shown unreachable).
   Some None is `return false`, Some (Some x) is leaving the loop with result x. *)
Fixpoint try_int_pow_loop (fuel : nat) (B E : ity) (result base exp : Z)
  : option (option Z) :=
  match fuel with
  | O => None
  | S fuel =>
    let continue (result : Z) :=
      let* e := cshr (E, exp) 1 in
      let exp := wrap E (snd e) in
      if exp =? 0 then Some (Some result)
      else
        let* p := try_int_mul B B base base in
        if fst p then try_int_pow_loop fuel B E result (snd p) exp
        else Some None in
    if int_is_odd E exp then
      let* p := try_int_mul B B result base in
      if fst p then continue (snd p) else Some None
    else continue result
  end.

(* try_int_pow: integer.hpp:1954-1981.  The fuel is the width of the exponent
   type (at least 32). *)
Definition try_int_pow (L R : ity) (l r : Z) : option (bool * Z) :=
  let B := strongly_promoted_type L in
  let E := strongly_promoted_type R in
  let base := int_cast_a B l in
  let exp := int_cast_a E r in
  if negb (is_negative E exp) then
    let* res := try_int_pow_loop (Z.to_nat (iwidth E)) B E 1 base exp in
    match res with
    | None => Some (false, l)
    | Some result => Some (try_int_cast L B result l)
    end
  else
    if base =? 0 then Some (false, l)
    else
      let base := if int_equal B t_int base (-1) && int_is_even E exp then 1 else base in
      let* q := cdiv (B, 1) (B, base) in
      Some (try_int_cast L B (wrap B (snd q)) l).

(* try_int_arith_shift_left: integer.hpp:1984-1999.  The two assertions
   (lval >= 0, i >= 0) are preconditions: their violation is None. *)
Definition try_int_arith_shift_left (T : ity) (l i : Z) : option (bool * Z) :=
  if negb (int_greater_equal T t_int l 0) then None
  else if i <? 0 then None
  else
    if i <? nvb (promo T) then
      let* m := cshr (T, imax T) i in
      if cge m (T, l) then
        let* s := cshl (T, l) i in
        Some (true, wrap T (snd s))
      else Some (false, l)
    else Some (l =? 0, l).

(* int_divmod: integer.hpp:2031-2045 together with IntegerTraits<T, true>::divmod,
   integer_traits.hpp:216-222 (has_divmod is true for builtin types): quot = a / b and
   rem = a % b computed in the promoted type p, then converted back to T.  The fallback
   branch (2039-2043) computes the same. *)
Definition int_divmod (t : ity) (a b : Z) : option (Z * Z) :=
  let p := strongly_promoted_type t in
  let* q := cdiv (p, int_cast_a p a) (p, int_cast_a p b) in
  let* r := crem (p, int_cast_a p a) (p, int_cast_a p b) in
  Some (int_cast_a t (snd q), int_cast_a t (snd r)).

(* int_div_round_up: integer.hpp:2048-2059; None also for a violated assertion *)
Definition int_div_round_up (T U : ity) (a b : Z) : option Z :=
  if is_negative T a || is_negative U b then None
  else
    let type := promo (common2 T U) in
    let a2 := int_cast_a type a in
    let b2 := int_cast_a type b in
    let* qr := int_divmod type a2 b2 in
    if negb (snd qr =? 0) then
      let* s := cadd (type, fst qr) (type, 1) in
      Some (int_cast_a T (snd s))
    else Some (int_cast_a T (fst qr)).

(* int_div_round_half_down: integer.hpp:2062-2073 *)
Definition int_div_round_half_down (T U : ity) (a b : Z) : option Z :=
  if is_negative T a || is_negative U b then None
  else
    let type := promo (common2 T U) in
    let a2 := int_cast_a type a in
    let b2 := int_cast_a type b in
    let* qr := int_divmod type a2 b2 in
    let* h := cdiv (U, b) (t_int, 2) in
    if cle (type, snd qr) (type, wrap type (snd h)) then
      Some (int_cast_a T (fst qr))
    else
      let* s := cadd (type, fst qr) (type, 1) in
      Some (int_cast_a T (snd s)).

(* impl::int_odd_mod: integer.hpp:2079-2087 *)
Definition int_odd_mod (t : ity) (a b : Z) : option Z :=
  if int_not_equal t t_int b (-1) then
    let* r := crem (t, a) (t, b) in Some (snd r)
  else Some 0.

(* impl::int_periodic_mod: integer.hpp:2090-2103 *)
Definition int_periodic_mod_same (t : ity) (a b : Z) : option Z :=
  let* c := int_odd_mod t a b in
  let fin := (let* s := cadd (t, b) (t, c) in Some (snd s)) in
  if cge (t, b) (t, 0) then
    if cge (t, c) (t, 0) then Some c else fin
  else
    if cle (t, c) (t, 0) then Some c else fin.

(* int_neg: integer.hpp:2002-2010 *)
Definition int_neg (t : ity) (v : Z) : option tv :=
  if isigned t then cneg (t, v)
  else cadd (cnot (t, v)) (promo t, 1).

(* int_periodic_mod: integer.hpp:2109-2131 *)
Definition int_periodic_mod (T U : ity) (a b : Z) : option Z :=
  let type := promo (common2 T U) in
  let a2 := int_cast_a type a in
  let b2 := int_cast_a type b in
  let general := (let* c := int_periodic_mod_same type a2 b2 in Some (int_cast_a U c)) in
  if negb (isigned type) then
    if is_negative T a then
      let* r := crem (cnot (type, a2)) (type, b2) in
      let* d := csub (type, b2) (type, 1) in
      let* e := csub d r in
      Some (int_cast_a U (snd e))
    else if is_negative U b then
      let* n := int_neg type b2 in
      let* c0 := crem (type, a2) n in
      let c := wrap type (snd c0) in
      let type_2 := promo U in
      if negb (c =? 0) then
        let* s := cadd (promo U, b) (type_2, int_cast_a type_2 c) in
        Some (int_cast_a U (snd s))
      else Some (int_cast_a U 0)
    else general
  else general.

(* int_is_power_of_two: integer.hpp:1075-1081 *)
Definition int_is_power_of_two (T : ity) (v : Z) : option bool :=
  let t := promo T in
  if cgt (t, v) (t, 0) then
    let* d := csub (t, v) (t_int, 1) in
    Some (snd (cand (t, v) d) =? 0)
  else Some false.

(* int_find_msb_pos, the loop: integer.hpp:1097-1111.  vt is the type of v. *)
Fixpoint find_msb_loop (fuel : nat) (vt : ity) (v i j : Z) : option Z :=
  match fuel with
  | O => None
  | S fuel =>
    let n := Z.quot (j - i) 2 in
    if 0 <? n then
      let* w0 := cshr (vt, v) n in
      let w := wrap vt (snd w0) in
      if negb (w =? 0) then find_msb_loop fuel vt w (i + n) j
      else find_msb_loop fuel vt v i (i + n)
    else Some (if negb (v =? 0) then i else i - 1)
  end.

(* int_find_msb_pos: integer.hpp:1092-1114, the branch without a traits override
   (has_find_msb_pos is false for bool and for user types without one) *)
Definition int_find_msb_pos_fallback (T : ity) (v : Z) : option Z :=
  if negb (is_negative T v) then
    let vt := unsigned_type (promo T) in
    find_msb_loop (S (Z.to_nat (nvb T))) vt (int_cast_a vt v) 0 (nvb T)
  else Some (nvb T).

(* std::countl_zero of the unsigned value u of n bits (C++ library, [bit.count]):
   the number of consecutive 0 bits starting from bit n - 1 *)
Fixpoint countl_zero (n : nat) (u : Z) : Z :=
  match n with
  | O => 0
  | S n => if Z.testbit u (Z.of_nat n) then 0 else 1 + countl_zero n u
  end.

(* IntegerTraits<T, true>::find_msb_pos: integer_traits.hpp:207-213 *)
Definition traits_find_msb_pos (T : ity) (v : Z) : Z :=
  let n := iwidth T in
  (n - 1) - countl_zero (Z.to_nat n) (wrap (unsigned_type T) v).

(* int_find_msb_pos: integer.hpp:1086-1091, for builtin integer types other than
   bool, for which IntegerTraits has has_find_msb_pos = true (integer_traits.hpp:145) *)
Definition int_find_msb_pos (T : ity) (v : Z) : option Z := Some (traits_find_msb_pos T v).

(* int_mask: integer.hpp:1192-1202 *)
Definition int_mask (T : ity) (n : Z) : option Z :=
  if 0 <? n then
    let extra := if n <=? nvb T then nvb T - n else 0 in
    let* m := cshr (T, imax T) extra in
    Some (int_cast_a T (snd m))
  else Some 0.

(* int_sqrt, the loop: integer.hpp:2142-2145.  type is the promoted type. *)
Fixpoint int_sqrt_loop (fuel : nat) (type : ity) (v v0 v1 : Z) : option Z :=
  match fuel with
  | O => None
  | S fuel =>
    if clt (type, v1) (type, v0) then
      let v0 := v1 in
      let* q := cdiv (type, v) (type, v0) in
      let* s := cadd (type, v0) q in
      let* h := cshr s 1 in
      int_sqrt_loop fuel type v v0 (wrap type (snd h))
    else Some v0
  end.

(* int_sqrt: integer.hpp:2134-2149.  Fuel: v + 3 iterations. *)
Definition int_sqrt (T : ity) (v : Z) : option Z :=
  if is_negative T v then None
  else
    let type := promo T in
    if negb (v =? 0) then
      let ut := unsigned_type type in
      let* m := int_find_msb_pos ut (int_cast_a ut v) in
      let* s0 := cshl (type, 1) (Z.quot m 2 + 1) in
      let v0 := wrap type (snd s0) in
      let* q := cdiv (type, v) (type, v0) in
      let* s := cadd (type, v0) q in
      let* h := cshr s 1 in
      let* r := int_sqrt_loop (Z.to_nat (v + 3)) type v v0 (wrap type (snd h)) in
      Some (int_cast_a T r)
    else Some v.

(* twos_compl_sign_extend: integer.hpp:1540-1550 (T unsigned, from_width > 0) *)
Definition twos_compl_sign_extend (T : ity) (v from_width : Z) : option Z :=
  if negb (0 <? from_width) then None
  else if from_width <? iwidth T then
    let p := promo T in
    let* one := cshl (p, 1) (from_width - 1) in
    let sign_bit := cand (p, v) one in
    let* sh := cshl sign_bit 1 in
    let* d := csub sh (t_int, 1) in
    let ext := cnot d in
    Some (wrap T (snd (cor ext (p, v))))
  else Some v.

(* try_twos_compl_cast for two unsigned types: integer.hpp:1494-1514.
   (can_twos_compl_cast, 1470-1485, computes the same condition.) *)
Definition try_twos_compl_cast_uu (T F : ity) (from to : Z) : option (bool * Z) :=
  if iwidth F <=? iwidth T then
    let* e := twos_compl_sign_extend T (wrap T from) (iwidth F) in
    Some (true, e)
  else
    let p := promo F in
    let* one := cshl (p, 1) (iwidth T - 1) in
    let sign_bit := cand (p, from) one in
    let* sh := cshl sign_bit 1 in
    let* d := csub sh (t_int, 1) in
    let expected := cnot d in
    let* m1 := cshl (p, wrap F (-1)) (iwidth T) in
    let actual := cand (p, from) m1 in
    if ceq actual expected then Some (true, wrap T from) else Some (false, to).
