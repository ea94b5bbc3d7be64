(* Specification of pattern matching: an asterisk stands for any sequence of characters,
   every other character for itself. *)
From Coq Require Import ZArith List.
Import ListNotations.

Inductive matches (star : Z) : list Z -> list Z -> Prop :=
| matches_nil : matches star [] []
| matches_char c pattern string :
    c <> star -> matches star pattern string -> matches star (c :: pattern) (c :: string)
| matches_star pattern string_1 string_2 :
    matches star pattern string_2 -> matches star (star :: pattern) (string_1 ++ string_2).

(* r is the identifier of the first of the patterns that matches the string *)
Inductive first_match (star : Z) (string : list Z) : list (list Z * Z) -> option Z -> Prop :=
| first_match_none : first_match star string [] None
| first_match_here pattern ident patterns :
    matches star pattern string -> first_match star string ((pattern, ident) :: patterns) (Some ident)
| first_match_later pattern ident patterns r :
    ~ matches star pattern string -> first_match star string patterns r ->
    first_match star string ((pattern, ident) :: patterns) r.

(* two of the patterns match the string *)
Definition both_match (star : Z) (patterns : list (list Z * Z)) (i j : nat) (string : list Z) : Prop :=
  exists p q, nth_error (map fst patterns) i = Some p /\ nth_error (map fst patterns) j = Some q /\
              matches star p string /\ matches star q string.

(* all characters are values of the character type *)
Definition chars_ok (kmin kmax : Z) (string : list Z) : Prop :=
  Forall (fun c => kmin <= c <= kmax)%Z string.
