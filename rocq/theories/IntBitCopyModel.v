(* Model of core::int_bit_copy() (src/archon/core/integer.hpp:2152-2250), of
   IntegerTraits<T>::get_parts()/from_parts() for builtin integer types
   (src/archon/core/integer_traits.hpp:172-204), and of
   core::cast_from_twos_compl_a() (integer.hpp:1417-1455). *)

From Coq Require Import ZArith Lia Bool List.
From Verif Require Import CInt IntModel.
From Verif Require Import ArrLib.
Import ListNotations.
Open Scope Z_scope.

Section BitCopy.
  (* part_width_1, part_width_2 (integer.hpp:2161-2162) and from_signed *)
  Variables pw1 pw2 : Z.
  Variable from_signed : bool.

  (* using type = common_int_type<unsigned, part_type_1, part_type_2>:
     integer.hpp:2158.  All three are unsigned builtin types, so it is the widest *)
  Definition tw : Z := Z.max 32 (Z.max pw1 pw2).
  Definition ty (z : Z) : Z := z mod 2 ^ tw.
  Definition shl (z n : Z) : option Z :=
    if (0 <=? n) && (n <? tw) then Some (ty (Z.shiftl z n)) else None.
  Definition shr (z n : Z) : option Z :=
    if (0 <=? n) && (n <? tw) then Some (Z.shiftr z n) else None.
  Definition pt2 (z : Z) : Z := z mod 2 ^ pw2.

  (* the sign extension word: integer.hpp:2184-2187 and 2230-2233.  The shift is
     done in part_type_1 promoted; part_width_1 - 1 is always a valid shift count *)
  Definition ext_word (parts_1 : list Z) : option Z :=
    if from_signed then
      let? last := nth_error parts_1 (length parts_1 - 1) in
      Some (ty (-1 * Z.shiftr last (pw1 - 1)))
    else Some (ty (-1 * 0)).

  (* the loop that fills the remaining parts: integer.hpp:2190-2197 and 2236-2243 *)
  Fixpoint ext_loop (fuel : nat) (ext : Z) (i2 : nat) (parts_2 : list Z) : option (list Z) :=
    match fuel with
    | O => None
    | S fuel =>
      let i2 := S i2 in
      if (i2 <? length parts_2)%nat then
        let? parts_2 := set_nth parts_2 i2 (pt2 ext) in
        ext_loop fuel ext i2 parts_2
      else Some parts_2
    end.

  (* the scatter loop: integer.hpp:2168-2206 *)
  Fixpoint scatter_loop (fuel : nat) (parts_1 : list Z) (i1 i2 : nat) (part_1 offset : Z)
    (parts_2 : list Z) : option (list Z) :=
    match fuel with
    | O => None
    | S fuel =>
      let? part_2 := shr part_1 offset in
      if offset <? pw1 - pw2 then
        let offset := offset + pw2 in
        let? parts_2 := set_nth parts_2 i2 (pt2 part_2) in
        let i2 := S i2 in
        if (i2 <? length parts_2)%nat then scatter_loop fuel parts_1 i1 i2 part_1 offset parts_2
        else Some parts_2
      else
        let offset := offset - (pw1 - pw2) in
        let i1 := S i1 in
        if (i1 <? length parts_1)%nat then
          let? part_1 := nth_error parts_1 i1 in
          let? a := shl part_1 1 in
          let? a := shl a (pw2 - offset - 1) in
          let part_2 := Z.lor part_2 a in
          let? parts_2 := set_nth parts_2 i2 (pt2 part_2) in
          let i2 := S i2 in
          if (i2 <? length parts_2)%nat then scatter_loop fuel parts_1 i1 i2 part_1 offset parts_2
          else Some parts_2
        else
          let? ext := ext_word parts_1 in
          let? a := shl ext 1 in
          let? a := shl a (pw2 - offset - 1) in
          let part_2 := Z.lor part_2 a in
          let? parts_2 := set_nth parts_2 i2 (pt2 part_2) in
          ext_loop (S (length parts_2)) ext i2 parts_2
    end.

  (* the gather loop: integer.hpp:2211-2247 *)
  Fixpoint gather_loop (fuel : nat) (parts_1 : list Z) (i1 i2 : nat) (part_2 offset : Z)
    (parts_2 : list Z) : option (list Z) :=
    match fuel with
    | O => None
    | S fuel =>
      let? part_1 := nth_error parts_1 i1 in
      let? a := shl part_1 offset in
      let part_2 := Z.lor part_2 a in
      let finish (i1 i2 : nat) (part_2 offset : Z) (parts_2 : list Z) :=
        let i1 := S i1 in
        if (i1 <? length parts_1)%nat then gather_loop fuel parts_1 i1 i2 part_2 offset parts_2
        else
          let? ext := ext_word parts_1 in
          let? a := shl ext offset in
          let part_2 := Z.lor part_2 a in
          let? parts_2 := set_nth parts_2 i2 (pt2 part_2) in
          ext_loop (S (length parts_2)) ext i2 parts_2 in
      if offset <? pw2 - pw1 then finish i1 i2 part_2 (offset + pw1) parts_2
      else
        let? parts_2 := set_nth parts_2 i2 (pt2 part_2) in
        let i2 := S i2 in
        if (i2 <? length parts_2)%nat then
          let offset := offset - (pw2 - pw1) in
          let? b := shr part_1 1 in
          let? b := shr b (pw1 - offset - 1) in
          finish i1 i2 b offset parts_2
        else Some parts_2
    end.

  (* int_bit_copy: integer.hpp:2152-2250.  The fuel bounds the number of iterations
     of the outer loop (each one advances one of the two indexes). *)
  Definition int_bit_copy (parts_1 parts_2 : list Z) : option (list Z) :=
    if pw2 <=? pw1 then
      let? p := nth_error parts_1 0 in
      scatter_loop (S (length parts_2)) parts_1 0 0 (ty p) 0 parts_2
    else gather_loop (S (length parts_1)) parts_1 0 0 0 0 parts_2.
End BitCopy.

(* IntegerTraits<T>, builtin T: part_type is the unsigned version of the promoted
   type, and num_parts = 1 because the width of T never exceeds the width of that:
   integer_traits.hpp:132-144 *)
Definition part_type (T : ity) : ity := unsigned_type (promo T).

(* get_parts: integer_traits.hpp:172-183, num_parts == 1 *)
Definition get_parts (T : ity) (v : Z) : list Z := [wrap (part_type T) v].

(* from_parts: integer_traits.hpp:186-200, num_parts == 1 *)
Definition from_parts (T : ity) (parts : list Z) : option Z :=
  let? p := nth_error parts 0 in
  let P := part_type T in
  if negb (isigned T) then Some (wrap T p)
  else
    let? bit := cshl (P, 1) (iwidth P - 1) in
    let nonnegative := ceq (cand (P, p) bit) (t_int, 0) in
    if nonnegative then Some (wrap T p)
    else
      let? d := csub (P, wrap P (-1)) (P, p) in
      let? r := csub (t_int, -1) (promo T, wrap (promo T) (snd d)) in
      Some (wrap T (snd r)).

(* cast_from_twos_compl_a: integer.hpp:1417-1455, builtin F and T.  The branch for
   a nonbuiltin F (1420-1431) is not modelled. *)
Definition cast_from_twos_compl_a (T F : ity) (v : Z) : option Z :=
  if negb (isigned F) && isigned T then
    let PF := part_type F in
    let PT := part_type T in
    let? p := nth_error (get_parts F v) 0 in
    let sign_bit_pos := (iwidth F - 1) mod iwidth PF in
    let? mask := int_mask PF (sign_bit_pos + 1) in
    let ext := cnot (PF, mask) in
    let? sign_bit := cshr (PF, p) sign_bit_pos in
    let? e := cmul sign_bit ext in
    let parts_1 := [wrap PF (snd (cor (PF, p) e))] in
    let? parts_2 := int_bit_copy (iwidth PF) (iwidth PT) true parts_1 [0] in
    from_parts T parts_2
  else Some (int_cast_a T v).
