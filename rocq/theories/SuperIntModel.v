(* Model of archon::core::SuperInt (src/archon/core/super_int.hpp).

   N is the number of value bits of uint_type (std::uintmax_t, super_int.hpp:50-60),
   so that N+1 bits are represented.  uint_type is at least as wide as int, so
   arithmetic on it is reduced modulo 2^N without promotion. *)
From Coq Require Import ZArith Bool.
From Verif Require Import CInt.
Open Scope Z_scope.

(* data members m_value, m_sign_bit: super_int.hpp:136-145 *)
Record sint := SInt { sval : Z; ssign : bool }.

Definition u (N x : Z) : Z := x mod 2 ^ N.          (* reduction of uint_type results *)
Definition umax (N : Z) : Z := 2 ^ N - 1.           (* uint_lim_type::max() *)
Definition unot (N x : Z) : Z := umax N - x.        (* ~x for x of type uint_type *)

(* min, max: super_int.hpp:158-171 *)
Definition s_min : sint := SInt 0 true.
Definition s_max (N : Z) : sint := SInt (umax N) false.

(* converting constructor: super_int.hpp:174-186 *)
Definition s_of (N : Z) (T : ity) (value : Z) : sint :=
  SInt (u N value) (if isigned T then value <? 0 else false).

(* operator+=, operator-=: super_int.hpp:335-352 *)
Definition s_add (N : Z) (a b : sint) : sint :=
  let m := u N (sval a + sval b) in
  let carry := m <? sval a in
  SInt m (xorb (xorb (ssign a) (ssign b)) carry).
Definition s_sub (N : Z) (a b : sint) : sint :=
  let m := u N (sval a - sval b) in
  let borrow := m >? sval a in
  SInt m (xorb (xorb (ssign a) (ssign b)) borrow).

(* unary operators: super_int.hpp:243-252 *)
Definition s_neg (N : Z) (a : sint) : sint := s_sub N (SInt 0 false) a.
Definition s_not (N : Z) (a : sint) : sint := SInt (unot N (sval a)) (negb (ssign a)).

(* operator*=: super_int.hpp:355-367 (msb_pos = digits - 1 = N - 1) *)
Definition s_mul (N : Z) (a b : sint) : sint :=
  let msb_pos := N - 1 in
  let a_1 := Z.land (sval a) 1 in
  let b_1 := Z.land (sval b) 1 in
  let a_2 := Z.lor (u N (Z.shiftl (Z.b2z (ssign a)) msb_pos)) (Z.shiftr (sval a) 1) in
  let b_2 := Z.lor (u N (Z.shiftl (Z.b2z (ssign b)) msb_pos)) (Z.shiftr (sval b) 1) in
  let v := u N (u N (u N (Z.shiftl (u N (a_2 * b_2)) 1) + u N (a_2 * b_1)) + u N (a_1 * b_2)) in
  SInt (Z.lor (u N (Z.shiftl v 1)) (u N (a_1 * b_1))) (negb (Z.shiftr v msb_pos =? 0)).

(* operator&=, |=, ^=: super_int.hpp:400-421 *)
Definition s_and (a b : sint) : sint := SInt (Z.land (sval a) (sval b)) (ssign a && ssign b).
Definition s_or (a b : sint) : sint := SInt (Z.lor (sval a) (sval b)) (ssign a || ssign b).
Definition s_xor (a b : sint) : sint := SInt (Z.lxor (sval a) (sval b)) (xorb (ssign a) (ssign b)).

(* operator<<=, >>=: super_int.hpp:424-442; a shift count outside [0, N) is undefined *)
Definition s_shl (N : Z) (a : sint) (n : Z) : option sint :=
  if 0 <? n then
    if (n <? N) && (0 <=? N - n) then
      Some (SInt (u N (Z.shiftl (sval a) n)) (negb (Z.land (Z.shiftr (sval a) (N - n)) 1 =? 0)))
    else None
  else Some a.
Definition s_shr (N : Z) (a : sint) (n : Z) : option sint :=
  if 0 <? n then
    if n <? N then
      Some (SInt (Z.lor (Z.shiftr (sval a) n) (u N (Z.shiftl (Z.b2z (ssign a)) (N - n)))) false)
    else None
  else Some a.

(* comparison: super_int.hpp:445-490 *)
Definition s_eq (a b : sint) : bool := (sval a =? sval b) && eqb (ssign a) (ssign b).
Definition s_lt (a b : sint) : bool :=
  if ssign a && negb (ssign b) then true
  else if eqb (ssign a) (ssign b) then sval a <? sval b else false.
Definition s_ne (a b : sint) : bool := negb (s_eq a b).
Definition s_le (a b : sint) : bool := negb (s_lt b a).
Definition s_gt (a b : sint) : bool := s_lt b a.
Definition s_ge (a b : sint) : bool := negb (s_lt a b).

(* cast_has_overflow: super_int.hpp:196-204 *)
Definition s_cast_has_overflow (N : Z) (T : ity) (a : sint) : bool :=
  s_lt a (s_of N T (imin T)) || s_gt a (s_of N T (imax T)).

(* get_as: super_int.hpp:207-234; old is the previous value of the out argument *)
Definition s_get_as (N : Z) (T : ity) (a : sint) (old : Z) : option (bool * Z) :=
  if s_cast_has_overflow N T a then Some (false, old)
  else if ssign a then
    let p := promo T in
    let* d := csub (t_int, -1) (p, wrap p (unot N (sval a))) in
    Some (true, wrap T (snd d))
  else Some (true, wrap T (sval a)).

(* add/subtract_with_overflow_detect: super_int.hpp:493-516.  The result is the
   returned flag (true = overflow) and the new value of *this. *)
Definition s_add_ov (N : Z) (a b : sint) : bool * sint :=
  let sum := s_add N a b in
  let carry := sval sum <? sval a in
  if eqb (ssign a) (ssign b) && xorb (ssign a) carry then (true, a) else (false, sum).
Definition s_sub_ov (N : Z) (a b : sint) : bool * sint :=
  let diff := s_sub N a b in
  let borrow := sval diff >? sval a in
  if xorb (ssign a) (ssign b) && eqb (ssign a) borrow then (true, a) else (false, diff).

(* multiply_with_overflow_detect: super_int.hpp:519-579 *)
Definition s_mul_ov (N : Z) (x y : sint) : bool * sint :=
  let max := umax N in
  let a := sval x in
  let b := sval y in
  let good :=
    if negb (ssign x) then
      if negb (ssign y) then (b =? 0) || (a <=? max / b)
      else (a =? 0) || (unot N b <=? u N (max - u N (a - 1)) / a)
    else
      if negb (ssign y) then (b =? 0) || (unot N a <=? u N (max - u N (b - 1)) / b)
      else
        if negb (unot N b =? 0) then
          (unot N a <=? u N (max - 1)) && (unot N b <=? u N (u N (max - 1) - unot N a)) &&
          (unot N a <=? u N (u N (u N (max - 1) - unot N a) - unot N b) / unot N b)
        else negb (a =? 0) in
  if good then (false, s_mul N x y) else (true, x).

(* divide_with_overflow_detect: super_int.hpp:582-653; division by zero is undefined *)
Definition s_div_ov (N : Z) (a b : sint) : option (bool * sint) :=
  let av := sval a in
  let bv := sval b in
  let udiv (x y : Z) := if y =? 0 then None else Some (x / y) in
  let opp (x : Z) := u N (unot N x + 1) in
  if negb (ssign a) then
    if negb (ssign b) then
      let* q := udiv av bv in Some (false, SInt q (ssign a))
    else if bv >? 0 then
      let* result := udiv av (opp bv) in
      Some (false, SInt (opp result) (result >? 0))
    else Some (false, SInt 0 (ssign a))
  else
    let max := umax N in
    if negb (ssign b) then
      if av >? 0 then
        let* result := udiv (opp av) bv in
        Some (false, SInt (opp result) (result >? 0))
      else
        let* result := udiv max bv in
        if u N (max - u N (result * bv)) >=? u N (bv - 1) then
          if result =? max then Some (false, SInt av true)
          else
            let result := u N (result + 1) in
            Some (false, SInt (opp result) (result >? 0))
        else Some (false, SInt (opp result) (result >? 0))
    else if av >? 0 then
      if bv >? 0 then
        let* q := udiv (opp av) (opp bv) in Some (false, SInt q false)
      else Some (false, SInt 0 false)
    else if bv >? 0 then
      let b_2 := opp bv in
      let* result := udiv max b_2 in
      if u N (max - u N (result * b_2)) >=? u N (b_2 - 1) then
        if result =? max then Some (true, a)
        else Some (false, SInt (u N (result + 1)) false)
      else Some (false, SInt result false)
    else Some (false, SInt 1 false).

(* operator/=: super_int.hpp:370-382; None also for a failed assertion.
   SuperInt(-1) has all value bits set and the sign bit set. *)
Definition s_div (N : Z) (a b : sint) : option sint :=
  let* r := s_div_ov N a b in
  if negb (fst r) then Some (snd r)
  else if s_eq (snd r) s_min && s_eq b (s_of N t_int (-1)) then Some s_min else None.

(* operator%=: super_int.hpp:385-397 *)
Definition s_mod (N : Z) (a b : sint) : option sint :=
  let* r := s_div_ov N a b in
  if negb (fst r) then Some (s_sub N a (s_mul N (snd r) b))
  else if s_eq a s_min && s_eq b (s_of N t_int (-1)) then Some (SInt 0 false) else None.
