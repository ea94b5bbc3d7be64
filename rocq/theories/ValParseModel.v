(* Model of parsing of integers by BasicValueParserSource::parse()
   (src/archon/core/value_parser.hpp).

   The integer type is any builtin integer type other than bool and the character types.
   Characters are given by their codes (ASCII).  The extraction operator is that of the
   standard library with the classic locale, decimal notation, and skipws off (line 211):
   an optional sign followed by decimal digits, zero and failure if there are no digits, the
   nearest value of the type and failure if out of range.  This part is an assumption about
   the standard library, not a model of code in the repository. *)
From Coq Require Import ZArith Bool List.
From Verif Require Import CInt.
Import ListNotations.
Open Scope Z_scope.

Definition c_dash : Z := 45.
Definition c_plus : Z := 43.
Definition is_digit (c : Z) : bool := (48 <=? c) && (c <=? 57).

(* Digits at the beginning, the value accumulated from them, and what follows *)
Fixpoint take_digits (str : list Z) (any : bool) (acc : Z) : bool * Z * list Z :=
  match str with
  | c :: rest => if is_digit c then take_digits rest true (10 * acc + (c - 48)) else (any, acc, str)
  | [] => (any, acc, [])
  end.

(* in >> var: assigned value, failure, and what is left of the string.  A negative value is
   wrapped around if the type is unsigned. *)
Definition extract (t : ity) (str : list Z) : Z * bool * list Z :=
  let (neg, str) :=
    match str with
    | c :: rest => if c =? c_dash then (true, rest) else if c =? c_plus then (false, rest) else (false, str)
    | [] => (false, str)
    end in
  let '(any, v, rest) := take_digits str false 0 in
  if any then
    if isigned t then
      let v := if neg then - v else v in
      if v <? imin t then (imin t, true, rest)
      else if imax t <? v then (imax t, true, rest)
      else (v, false, rest)
    else
      if imax t <? v then (imax t, true, rest)
      else ((if neg then wrap t (- v) else v), false, rest)
  else (0, true, rest).

(* do_parse: value_parser.hpp:317-333.  var is the value of the variable before the call; the
   result is the returned value and the value of the variable after the call. *)
Definition do_parse (t : ity) (string : list Z) (var : Z) : bool * Z :=
  if negb (isigned t) && match string with c :: _ => c =? c_dash | [] => false end then (false, var)
  else
    let '(var, fail, rest) := extract t string in
    (negb fail && match rest with [] => true | _ => false end, var).
