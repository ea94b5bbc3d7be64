(* Model of core::MulPrecInt (src/archon/core/mul_prec_int.hpp).

   A MulPrecInt<T, N, S> is its array of parts: a list of N values of part_type,
   least significant first.  T is an unsigned builtin type of width pw.  All
   arithmetic on parts happens in the promoted part type, with the semantics of
   CInt (so for part types narrower than int it is signed arithmetic in which
   overflow is undefined).  None stands for undefined behaviour or a failed
   assertion: an array access out of bounds, signed overflow, an over-wide shift,
   division by zero, ARCHON_ASSERT.  Loop counters of type int are nat. *)
From Coq Require Import ZArith Lia Bool List.
From Verif Require Import CInt IntModel ArrLib.
Import ListNotations.
Open Scope Z_scope.

Section MulPrec.
  Variable pw : Z.       (* width of part_type *)
  Variable N : nat.      (* num_parts *)
  Variable sg : bool.    (* is_signed *)

  Notation part := Z.
  Notation parts := (list Z).

  Definition T : ity := ITy pw false.
  Definition P : ity := promo T.

  (* conversion to part_type: part_type(x), or initialization / assignment of a
     part_type object *)
  Definition pt (z : Z) : part := wrap T z.
  (* result of an arithmetic operation on (promoted) parts *)
  Definition ar (z : Z) : option Z := option_map snd (norm P z).
  Definition shl (x n : Z) : option Z := option_map snd (cshl (P, x) n).
  Definition shr (x n : Z) : option Z := option_map snd (cshr (P, x) n).
  Definition check (b : bool) : option unit := if b then Some tt else None.

  (* mul_prec_int.hpp:83, 151-155.  s_subpart_mask = int_mask<part_type>(...) is
     2^n - 1 by theorem int_mask_exact (IntProps). *)
  Definition width : Z := Z.of_nat N * pw.
  Definition sw : Z := pw / 2.
  Definition ns : nat := Z.to_nat ((width + sw - 1) / sw).
  Definition mask : part := 2 ^ sw - 1.

  (* is_nonneg(): mul_prec_int.hpp:260-268 *)
  Definition is_nonneg (x : parts) : option bool :=
    if sg then
      let? p := nth_error x (N - 1) in
      let? s := shr p (pw - 1) in
      Some (s =? 0)
    else Some true.

  (* for (i = 0; i < n; ++i) (u[j + i], carry) = f(u[j + i], v[i], carry): the shape
     of the loops at mul_prec_int.hpp:300-301, 311-312, 325-329, 683-687, 690-694
     and 704-708 *)
  Fixpoint carry_loop (f : Z -> Z -> Z -> option (Z * Z)) (n i j : nat) (u v : list Z) (c : Z)
    : option (list Z * Z) :=
    match n with
    | O => Some (u, c)
    | S n =>
      let? a := nth_error u (j + i) in
      let? b := nth_error v i in
      let? (r, c) := f a b c in
      let? u := set_nth u (j + i) r in
      carry_loop f n (S i) j u v c
    end.

  (* bool as an integer *)
  Definition b2z (b : bool) : Z := if b then 1 else 0.

  (* partial_add(): mul_prec_int.hpp:793-800 *)
  Definition partial_add (lval rval carry : Z) : option (part * Z) :=
    let? s := ar (lval + rval) in
    let lval_2 := pt s in
    let? s := ar (lval_2 + carry) in
    let lval_3 := pt s in
    let carry_2 := (lval_2 <? lval) || (lval_3 <? lval_2) in
    Some (lval_3, b2z carry_2).

  (* partial_sub(): mul_prec_int.hpp:804-811 *)
  Definition partial_sub (lval rval carry : Z) : option (part * Z) :=
    let? s := ar (lval - rval) in
    let lval_2 := pt s in
    let? s := ar (lval_2 - carry) in
    let lval_3 := pt s in
    let carry_2 := (lval_2 >? lval) || (lval_3 >? lval_2) in
    Some (lval_3, b2z carry_2).

  (* operator+(MulPrecInt): mul_prec_int.hpp:296-303 *)
  Definition add (x y : parts) : option parts :=
    let? (r, _) := carry_loop partial_add N 0 0 x y 0 in Some r.

  (* operator-(MulPrecInt): mul_prec_int.hpp:307-314 *)
  Definition sub (x y : parts) : option parts :=
    let? (r, _) := carry_loop partial_sub N 0 0 x y 0 in Some r.

  (* MulPrecInt(): mul_prec_int.hpp:93, 149 *)
  Definition zero : parts := repeat 0 N.

  (* operator-(): mul_prec_int.hpp:279-282 *)
  Definition neg (x : parts) : option parts := sub zero x.

  (* for (i = i0; i < i0 + n; ++i) r[i] = f(i) *)
  Fixpoint fill_loop (f : nat -> option Z) (n i : nat) (r : list Z) : option (list Z) :=
    match n with
    | O => Some r
    | S n =>
      let? x := f i in
      let? r := set_nth r i x in
      fill_loop f n (S i) r
    end.

  (* operator~: mul_prec_int.hpp:286-292 *)
  Definition compl (x : parts) : option parts :=
    fill_loop (fun i => let? p := nth_error x i in Some (pt (Z.lnot p))) N 0 zero.

  (* operator&, |, ^: mul_prec_int.hpp:350-376 *)
  Definition bitwise (f : Z -> Z -> Z) (x y : parts) : option parts :=
    fill_loop (fun i => let? p := nth_error x i in let? q := nth_error y i in Some (pt (f p q)))
      N 0 zero.
  Definition band := bitwise Z.land.
  Definition bor := bitwise Z.lor.
  Definition bxor := bitwise Z.lxor.

  (* operator<<: mul_prec_int.hpp:380-396.  % and / on int truncate; a negative
     index is an access out of bounds. *)
  Definition shift_left (x : parts) (n : Z) : option parts :=
    let m := Z.rem n width in
    let a := Z.quot m pw in
    let b := Z.rem m pw in
    let? _ := check (0 <=? a) in
    let a := Z.to_nat a in
    if negb (b =? 0) then
      let? p := nth_error x 0 in
      let? s := shl p b in
      let? res := set_nth zero a (pt s) in
      fill_loop (fun k =>
        let i := (k - a)%nat in
        let? p := nth_error x i in
        let? p1 := nth_error x (i - 1) in
        let? s := shl p b in
        let? s1 := shr p1 (pw - b) in
        Some (pt (Z.lor s s1))) (N - a - 1) (a + 1) res
    else
      fill_loop (fun k => nth_error x (k - a)) (N - a) a zero.

  (* operator>>: mul_prec_int.hpp:400-416 *)
  Definition shift_right (x : parts) (n : Z) : option parts :=
    let m := Z.rem n width in
    let a := Z.quot m pw in
    let b := Z.rem m pw in
    let? _ := check (0 <=? a) in
    let a := Z.to_nat a in
    if negb (b =? 0) then
      let? res := fill_loop (fun i =>
        let? p := nth_error x (a + i) in
        let? p1 := nth_error x (a + i + 1) in
        let? s := shr p b in
        let? s1 := shl p1 (pw - b) in
        Some (pt (Z.lor s s1))) (N - 1 - a) 0 zero in
      let? p := nth_error x (N - 1) in
      let? s := shr p b in
      set_nth res (N - 1 - a) (pt s)
    else
      fill_loop (fun i => nth_error x (i + a)) (N - a) 0 zero.

  (* operator==: mul_prec_int.hpp:490-498.  k is num_parts - i. *)
  Fixpoint eq_loop (k : nat) (x y : parts) : option bool :=
    match k with
    | O => Some true
    | S k =>
      let? p := nth_error x k in
      let? q := nth_error y k in
      if p =? q then eq_loop k x y else Some false
    end.
  Definition equal (x y : parts) : option bool := eq_loop N x y.

  (* unsigned_less(): mul_prec_int.hpp:733-741 *)
  Fixpoint unsigned_less_loop (k : nat) (x y : parts) : option bool :=
    match k with
    | O => Some false
    | S k =>
      let? p := nth_error x k in
      let? q := nth_error y k in
      if p =? q then unsigned_less_loop k x y else Some (p <? q)
    end.
  Definition unsigned_less (x y : parts) : option bool := unsigned_less_loop N x y.

  (* operator<: mul_prec_int.hpp:509-514 *)
  Definition less (x y : parts) : option bool :=
    let? a := unsigned_less x y in
    let? xn := is_nonneg x in
    let? yn := is_nonneg y in
    let b := Bool.eqb xn yn in
    Some (Bool.eqb a b).

  (* operator!=, <=, >, >=: mul_prec_int.hpp:502-505, 518-535 *)
  Definition not_equal (x y : parts) : option bool := let? r := equal x y in Some (negb r).
  Definition greater (x y : parts) : option bool := less y x.
  Definition less_equal (x y : parts) : option bool := let? r := greater x y in Some (negb r).
  Definition greater_equal (x y : parts) : option bool := let? r := less x y in Some (negb r).

  (* min(): mul_prec_int.hpp:558-564 *)
  Definition min : option parts :=
    if sg then let? s := shl 1 (pw - 1) in set_nth zero (N - 1) (pt s) else Some zero.

  (* max(): mul_prec_int.hpp:568-577.  int_max<part_type>() is imax T. *)
  Definition max : option parts :=
    let? r := fill_loop (fun _ => Some (imax T)) N 0 zero in
    if sg then set_nth r (N - 1) (pt (Z.quot (imax T) 2)) else Some r.

  (* find_msb_pos(): mul_prec_int.hpp:581-590 *)
  Fixpoint find_msb_loop (k : nat) (x : parts) : option Z :=
    match k with
    | O => Some (-1)
    | S j =>
      let? p := nth_error x j in
      if negb (p =? 0) then
        let? m := int_find_msb_pos T p in
        Some (Z.of_nat j * pw + m)
      else find_msb_loop j x
    end.
  Definition find_msb_pos (x : parts) : option Z := find_msb_loop N x.

  (* scatter(): mul_prec_int.hpp:745-766 *)
  Fixpoint scatter_loop (k i part_index : nat) (part offset : Z) (x : parts) (r : list Z)
    : option (list Z) :=
    match k with
    | O => Some r
    | S k =>
      let? b := shr part offset in
      let bits := pt b in
      let offset := offset + sw in
      if pw <=? offset then
        let part_index := S part_index in
        let offset := offset - pw in
        let? _ := check ((part_index <? N)%nat || (i =? ns - 1)%nat) in
        if (part_index <? N)%nat then
          let? part := nth_error x part_index in
          let? s := shl part (sw - offset) in
          let bits := pt (Z.lor bits s) in
          let? r := set_nth r i (pt (Z.land bits mask)) in
          scatter_loop k (S i) part_index part offset x r
        else
          let? r := set_nth r i (pt (Z.land bits mask)) in
          scatter_loop k (S i) part_index part offset x r
      else
        let? r := set_nth r i (pt (Z.land bits mask)) in
        scatter_loop k (S i) part_index part offset x r
    end.
  Definition scatter (x : parts) : option (list Z) :=
    let? p := nth_error x 0 in
    scatter_loop ns 0 0 p 0 x (repeat 0 ns).

  (* gather(): mul_prec_int.hpp:770-789 *)
  Fixpoint gather_loop (k i part_index : nat) (part offset : Z) (s : list Z) (r : parts)
    : option parts :=
    match k with
    | O => Some r
    | S k =>
      let? subpart := nth_error s i in
      let? b := shl subpart offset in
      let part := pt (Z.lor part b) in
      let offset := offset + sw in
      if pw <=? offset then
        let? _ := check (part_index <? N)%nat in
        let? r := set_nth r part_index part in
        let offset := offset - pw in
        let? b := shr subpart (sw - offset) in
        gather_loop k (S i) (S part_index) (pt b) offset s r
      else gather_loop k (S i) part_index part offset s r
    end.
  Definition gather (s : list Z) : option parts := gather_loop ns 0 0 0 0 s zero.

  (* the body of the inner loop of operator*: mul_prec_int.hpp:326-328 (x is a[i]),
     and of the multiplication in unsigned_long_div(): 684-686 (x is q_hat) *)
  Definition mul_step (x r y carry : Z) : option (Z * Z) :=
    let? v := ar (x * y) in
    let? v := ar (v + r) in
    let? v := ar (v + carry) in
    let? c := shr v sw in
    Some (pt (Z.land v mask), pt c).

  (* operator*: mul_prec_int.hpp:318-332 *)
  Fixpoint mul_loop (k i : nat) (a b res : list Z) : option (list Z) :=
    match k with
    | O => Some res
    | S k =>
      let? x := nth_error a i in
      let? (res, _) := carry_loop (mul_step x) (ns - i) 0 i res b 0 in
      mul_loop k (S i) a b res
    end.
  Definition mul (x y : parts) : option parts :=
    let? a := scatter x in
    let? b := scatter y in
    let? res := mul_loop ns 0 a b (repeat 0 ns) in
    gather res.

  (* part / part and part % part *)
  Definition pdiv (a b : Z) : option Z := if b =? 0 then None else ar (Z.quot a b).
  Definition pmod (a b : Z) : option Z := if b =? 0 then None else ar (Z.rem a b).

  (* unsigned_short_div(): mul_prec_int.hpp:613-623.  k is s_num_subparts - i. *)
  Fixpoint short_div_loop (k : nat) (a : list Z) (b rem : Z) : option (list Z * Z) :=
    match k with
    | O => Some (a, rem)
    | S j =>
      let? s := shl rem sw in
      let? x := nth_error a j in
      let dividend := pt (Z.lor s x) in
      let? q := pdiv dividend b in
      let? a := set_nth a j (pt q) in
      let? r := pmod dividend b in
      short_div_loop j a b (pt r)
    end.
  Definition unsigned_short_div (a : list Z) (b : Z) : option (list Z * Z) :=
    short_div_loop ns a b 0.

  (* the normalization loops of unsigned_long_div(): mul_prec_int.hpp:641-645
     (k = s_num_subparts) and 648-652 (k = n - 1) *)
  Fixpoint norm_loop (k : nat) (shift : Z) (a u : list Z) : option (list Z) :=
    match k with
    | O => Some u
    | S j =>
      let? y := nth_error u k in
      let? x := nth_error a j in
      let? s := shr x (sw - shift) in
      let? u := set_nth u k (pt (Z.lor y s)) in
      let? s := shl x shift in
      let? u := set_nth u j (pt (Z.land s mask)) in
      norm_loop j shift a u
    end.

  (* estimation of the next quotient digit: mul_prec_int.hpp:660-676 *)
  Definition too_large (q_hat r_hat base v2 u2 : Z) : option bool :=
    (* the negation of the condition at lines 666 and 672 *)
    if q_hat <? base then
      let? a := ar (q_hat * v2) in
      let? b := ar (base * r_hat) in
      let? b := ar (b + u2) in
      Some (negb (a <=? b))
    else Some true.
  Definition estimate (u0 u1 u2 v1 v2 : Z) : option Z :=
    let? s := shl u0 sw in
    let e := pt (Z.lor s u1) in
    let f := v1 in
    let? q := pdiv e f in
    let q_hat := pt q in
    let? r := pmod e f in
    let r_hat := pt r in
    let? b := ar (mask + 1) in
    let base := pt b in
    let? t := too_large q_hat r_hat base v2 u2 in
    if negb t then Some q_hat
    else
      let q_hat := pt (q_hat - 1) in
      let? r := ar (r_hat + f) in
      let r_hat := pt r in
      if base <=? r_hat then Some q_hat
      else
        let? t := too_large q_hat r_hat base v2 u2 in
        if negb t then Some q_hat
        else Some (pt (q_hat - 1)).

  (* the body of the subtraction loop: mul_prec_int.hpp:691-693 *)
  Definition sub_step (u w carry : Z) : option (Z * Z) :=
    let? a := ar (u - w) in
    let? a := ar (a - carry) in
    let? c := shr a sw in
    Some (pt (Z.land a mask), pt (Z.land c 1)).

  (* the body of the add-back loop: mul_prec_int.hpp:705-707 *)
  Definition add_step (u v carry : Z) : option (Z * Z) :=
    let? a := ar (u + v) in
    let? a := ar (a + carry) in
    let? c := shr a sw in
    Some (pt (Z.land a mask), pt c).

  (* one iteration of the main loop of unsigned_long_div(): mul_prec_int.hpp:659-713.
     Yields the updated u and the quotient digit. *)
  Definition long_div_step (j n : nat) (u v : list Z) : option (list Z * Z) :=
    let? u0 := nth_error u (j + n) in
    let? u1 := nth_error u (j + n - 1) in
    let? u2 := nth_error u (j + n - 2) in
    let? v1 := nth_error v (n - 1) in
    let? v2 := nth_error v (n - 2) in
    let? q_hat := estimate u0 u1 u2 v1 v2 in
    let? (w, carry) := carry_loop (mul_step q_hat) n 0 0 (repeat 0 (ns + 1)) v 0 in
    let? w := set_nth w n carry in
    let? (u, carry) := carry_loop sub_step (n + 1) 0 j u w 0 in
    let nonnegative := carry =? 0 in
    if nonnegative then Some (u, q_hat)
    else
      let q_hat := pt (q_hat - 1) in
      let? (u, carry) := carry_loop add_step n 0 j u v 0 in
      let? x := nth_error u (j + n) in
      let? s := ar (x + carry) in
      let? u := set_nth u (j + n) (pt s) in
      Some (u, q_hat).

  (* the main loop: mul_prec_int.hpp:658-720 *)
  Fixpoint long_div_loop (j n : nat) (u v q : list Z) : option (list Z * list Z) :=
    let? (u, q_hat) := long_div_step j n u v in
    let? q := set_nth q j q_hat in
    match j with
    | O => Some (u, q)
    | S j => long_div_loop j n u v q
    end.

  (* unsigned_long_div(): mul_prec_int.hpp:627-729.  Yields the new value of a (the
     quotient) and the remainder. *)
  Definition unsigned_long_div (a b : list Z) (n : nat) : option (list Z * list Z) :=
    let? _ := check (1 <? n)%nat in
    let? _ := check (n <=? ns)%nat in
    let? bt := nth_error b (n - 1) in
    let? msb := int_find_msb_pos T bt in
    let shift := (sw - 1) - msb in
    let? u := norm_loop ns shift a (repeat 0 (ns + 1)) in
    let? s := shl bt shift in
    let? v := set_nth (repeat 0 ns) (n - 1) (pt s) in
    let? v := norm_loop (n - 1) shift b v in
    let m := (ns - n)%nat in
    let? (u, q) := long_div_loop m n u v (repeat 0 ns) in
    let? r := fill_loop (fun i =>
      let? x := nth_error u i in
      let? y := nth_error u (i + 1) in
      let? s := shr x shift in
      let? t := shl y (sw - shift) in
      Some (pt (Z.lor s (Z.land t mask)))) (n - 1) 0 (repeat 0 ns) in
    let? x := nth_error u (n - 1) in
    let? s := shr x shift in
    let? r := set_nth r (n - 1) (pt s) in
    Some (q, r).

  (* the loop at mul_prec_int.hpp:599-601 *)
  Fixpoint count_subparts (n : nat) (b : list Z) : option nat :=
    match n with
    | O => Some O
    | S k =>
      let? x := nth_error b k in
      if x =? 0 then count_subparts k b else Some n
    end.

  (* unsigned_div(): mul_prec_int.hpp:594-609 *)
  Definition unsigned_div (x y : parts) : option (parts * parts) :=
    let? a := scatter x in
    let? b := scatter y in
    let? n := count_subparts ns b in
    if (1 <? n)%nat then
      let? (a, rem) := unsigned_long_div a b n in
      let? q := gather a in
      let? r := gather rem in
      Some (q, r)
    else
      let? b0 := nth_error b 0 in
      let? (a, rem) := unsigned_short_div a b0 in
      let? rem := set_nth (repeat 0 ns) 0 rem in
      let? q := gather a in
      let? r := gather rem in
      Some (q, r).

  (* divmod(): mul_prec_int.hpp:539-554 *)
  Definition divmod (x y : parts) : option (parts * parts) :=
    let? xn := is_nonneg x in
    if xn then
      let? yn := is_nonneg y in
      if yn then unsigned_div x y
      else
        let? y := neg y in
        let? (q, r) := unsigned_div x y in
        let? q := neg q in
        Some (q, r)
    else
      let? x := neg x in
      let? yn := is_nonneg y in
      if yn then
        let? (q, r) := unsigned_div x y in
        let? q := neg q in
        let? r := neg r in
        Some (q, r)
      else
        let? y := neg y in
        let? (q, r) := unsigned_div x y in
        let? r := neg r in
        Some (q, r).

  (* operator/ and operator%: mul_prec_int.hpp:336-346 *)
  Definition div (x y : parts) : option parts := let? (q, _) := divmod x y in Some q.
  Definition rem (x y : parts) : option parts := let? (_, r) := divmod x y in Some r.

End MulPrec.

(* The compound assignment operators (mul_prec_int.hpp:420-486) are
   *this = *this op other and are not modelled separately. *)
