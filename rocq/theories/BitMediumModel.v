(* Model of the bit media (src/archon/image/bit_medium.hpp and
   src/archon/image/impl/bit_medium.hpp), of the integer conversions between
   fractions of unity (src/archon/util/unit_frac.hpp), and of image::int_to_int()
   (src/archon/image/comp_types.hpp).  Types are builtin integer types other than
   bool. *)

From Coq Require Import ZArith Bool List.
From Verif Require Import CInt IntModel.
From Verif Require Import ArrLib IntBitCopyModel.
Open Scope Z_scope.

(* is_bit_medium_of_width: impl/bit_medium.hpp:55-64.  int_inner_width()
   (core/integer.hpp:1048-1056) of a builtin type is its width because signed types
   use two's complement. *)
Definition is_bit_medium (T : ity) (N : Z) : bool :=
  (0 <=? N) && (N <=? iwidth T) && (N <=? iwidth (unsigned_type T)).

(* UnpackedType: impl/bit_medium.hpp:36-41 *)
Definition unpacked_type (T : ity) (N : Z) : ity :=
  let type_1 := promo T in
  let type_2 := unsigned_type type_1 in
  if N <=? nvb type_1 then type_1 else type_2.

(* pack_int: image/bit_medium.hpp:169-181.  The function is noexcept, so an overflow
   exception from int_cast (178) terminates the program: None. *)
Definition pack_int (T : ity) (N : Z) (U : ity) (val : Z) : option Z :=
  if N <=? nvb T then Some (int_cast_a T val)
  else
    let ut := unsigned_type (promo T) in
    if can_int_cast ut U val then
      let val_2 := int_cast_a ut val in
      let? val_3 := twos_compl_sign_extend ut val_2 N in
      cast_from_twos_compl_a T ut val_3
    else None.

(* unpack_int_a: image/bit_medium.hpp:191-203 *)
Definition unpack_int_a (N : Z) (U T : ity) (val : Z) : option Z :=
  if N <=? nvb T then Some (int_cast_a U val)
  else
    let ut := unsigned_type (promo T) in
    let? mask := int_mask ut N in
    let val_2 := wrap ut (snd (cand (ut, int_cast_a ut val) (ut, mask))) in
    Some (int_cast_a U val_2).

(* unpack_int: image/bit_medium.hpp:184-188 *)
Definition unpack_int (N : Z) (T : ity) (val : Z) : option Z :=
  unpack_int_a N (unpacked_type T N) T val.

(* change_bit_width, the expanding loop: util/unit_frac.hpp:261-271.
   P is the promoted type.  n_2 << 1 is an int not exceeding twice the width of T.
   Fuel: n_2 at least doubles in each iteration. *)
Fixpoint expand_loop (fuel : nat) (T P : ity) (m : Z) (v_2 n_2 : Z) : option Z :=
  match fuel with
  | O => None
  | S fuel =>
    let n_3 := 2 * n_2 in
    if m <? n_3 then
      let r := m - n_2 in
      if negb (r =? 0) then
        let? a := cshl (P, v_2) r in
        let? b := cshr (P, v_2) (n_2 - r) in
        Some (int_cast_a T (snd (cor a b)))
      else Some (int_cast_a T v_2)
    else
      let? one := cshl (P, 1) n_2 in
      let? f := cadd one (t_int, 1) in
      let? p := cmul (P, v_2) f in
      expand_loop fuel T P m (wrap P (snd p)) n_3
  end.

(* change_bit_width: util/unit_frac.hpp:252-272.  n is the origin width and m the
   target width (the declaration at line 167 calls them m and n). *)
Definition change_bit_width (T : ity) (v n m : Z) : option Z :=
  if negb ((0 <? n) && (n <=? iwidth T)) then None
  else if negb ((0 <? m) && (m <=? iwidth T)) then None
  else
    let P := promo T in
    let v_2 := wrap P v in
    if m <? n then
      let? r := cshr (P, v_2) (n - m) in
      Some (int_cast_a T (snd r))
    else expand_loop (Z.to_nat m) T P m v_2 n.

(* int_to_int_a: util/unit_frac.hpp:275-280.  W is the type selected by
   fast_unsigned_ext_int_type<N + M> (core/ext_int_type.hpp:49); only the case of a
   builtin type is modelled, any unsigned type of at least N + M bits. *)
Definition int_to_int_a (W I J : ity) (val max_1 max_2 : Z) : option Z :=
  let? p := cmul (W, int_cast_a W val) (W, int_cast_a W max_2) in
  let val_2 := wrap W (snd p) in
  let? q := int_div_round_half_down W I val_2 max_1 in
  Some (int_cast_a J q).

(* image::int_to_int<M, I, N, J>: image/comp_types.hpp:170-180 *)
Definition int_to_int (M : Z) (I : ity) (N : Z) (J : ity) (val : Z) : option Z :=
  let type_1 := unpacked_type J M in
  let type_2 := unpacked_type I N in
  let type_3 := common2 type_1 type_2 in
  let? val_2 := unpack_int M J val in
  let? val_3 := change_bit_width type_3 (wrap type_3 val_2) M N in
  pack_int I N type_3 val_3.
