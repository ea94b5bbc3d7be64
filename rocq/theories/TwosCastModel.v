(* Model of the checked casts to and from two's complement representation of
   /repo/src/archon/core/integer.hpp, for builtin integer types (other than bool) of
   arbitrary width.  None is undefined behaviour. *)

From Coq Require Import ZArith Bool List.
From Verif Require Import CInt IntModel.
Import ListNotations.
Open Scope Z_scope.

(* promote: integer.hpp:997-1001 *)
Definition promote (t : ity) (v : Z) : tv := (promo t, wrap (promo t) v).

(* to_unsigned: integer.hpp:1011-1016 *)
Definition to_unsigned (v : tv) : tv := (unsigned_type (fst v), wrap (unsigned_type (fst v)) (snd v)).

(* can_cast_to_twos_compl: integer.hpp:1300-1322 *)
Definition can_cast_to_twos_compl (T F : ity) (v : Z) : option bool :=
  if negb (isigned T) then
    let* sh := cshr (promote T (imax T)) 1 in
    let max := to_unsigned sh in
    if negb (isigned F) then Some (cle (F, v) max)
    else if cge (F, v) (t_int, 0) then
      (* Non-negative value *)
      Some (cle (to_unsigned (promote F v)) max)
    else
      (* Negative value *)
      let* d := csub (t_int, -1) (F, v) in
      Some (cle (to_unsigned d) max)
  else Some (can_int_cast T F v).

(* try_cast_to_twos_compl: integer.hpp:1325-1332; `to` is the old value of the
   destination *)
Definition try_cast_to_twos_compl (T F : ity) (from to : Z) : option (bool * Z) :=
  let* can := can_cast_to_twos_compl T F from in
  if can then Some (true, wrap T from) else Some (false, to).

(* the sign bit of an unsigned value: integer.hpp:1357-1358 and 1384-1385 *)
Definition has_no_sign_bit (F : ity) (v : Z) : option bool :=
  let* one := cshl (promote F 1) (iwidth F - 1) in
  Some (ceq (cand (promote F v) one) (t_int, 0)).

(* can_cast_from_twos_compl: integer.hpp:1350-1374 *)
Definition can_cast_from_twos_compl (T F : ity) (v : Z) : option bool :=
  if negb (isigned F) then
    let* nonnegative := has_no_sign_bit F v in
    if negb (isigned T) then Some (nonnegative && cle (F, v) (T, imax T))
    else if nonnegative then
      (* Non-negative value *)
      Some (cle (F, v) (to_unsigned (promote T (imax T))))
    else
      (* Negative value *)
      let* val_2 := csub (promote F (wrap F (-1))) (promote F v) in
      let* max := csub (promote T (wrap T (-1))) (promote T (imin T)) in
      Some (cle (to_unsigned val_2) (to_unsigned max))
  else Some (can_int_cast T F v).

(* try_cast_from_twos_compl: integer.hpp:1377-1414 *)
Definition try_cast_from_twos_compl (T F : ity) (from to : Z) : option (bool * Z) :=
  if negb (isigned F) then
    let* nonnegative := has_no_sign_bit F from in
    if negb (isigned T) then
      if nonnegative && cle (F, from) (T, imax T) then Some (true, wrap T from)
      else Some (false, to)
    else if nonnegative then
      (* Non-negative value *)
      if cle (F, from) (to_unsigned (promote T (imax T))) then Some (true, wrap T from)
      else Some (false, to)
    else
      (* Negative value *)
      let* val := csub (promote F (wrap F (-1))) (promote F from) in
      let* max := csub (promote T (wrap T (-1))) (promote T (imin T)) in
      if cle (to_unsigned val) (to_unsigned max) then
        let signed_type := promo T in
        let* d := csub (t_int, -1) (signed_type, wrap signed_type (snd val)) in
        Some (true, wrap T (snd d))
      else Some (false, to)
  else Some (try_int_cast T F from to).

(* cast_to_twos_compl, cast_from_twos_compl: integer.hpp:1291-1297 and 1341-1347.
   The inner None is std::overflow_error. *)
Definition cast_to_twos_compl (T F : ity) (v : Z) : option (option Z) :=
  let* r := try_cast_to_twos_compl T F v 0 in
  Some (if fst r then Some (snd r) else None).
Definition cast_from_twos_compl (T F : ity) (v : Z) : option (option Z) :=
  let* r := try_cast_from_twos_compl T F v 0 in
  Some (if fst r then Some (snd r) else None).

(* try_twos_compl_cast: integer.hpp:1494-1520 *)
Definition try_twos_compl_cast (T F : ity) (from to : Z) : option (bool * Z) :=
  if negb (isigned T) && negb (isigned F) then try_twos_compl_cast_uu T F from to
  else if negb (isigned T) then try_cast_to_twos_compl T F from to
  else if negb (isigned F) then try_cast_from_twos_compl T F from to
  else Some (try_int_cast T F from to).
