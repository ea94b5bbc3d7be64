(* Model of the formatting of timestamps with subsecond precision (core/timestamp_formatter.hpp), and of the conversion of
   time points (time_point_to_timespec() in core/time.hpp) *)
From Coq Require Import ZArith Bool List.
From Verif Require Import CInt IntModel IntTextModel ArrLib.
Import ListNotations.
Open Scope Z_scope.

(* time_point_to_timespec: core/time.hpp:83-97.  A time point is a number of ticks since the epoch, of which there are K per
   second (10^9 / K is an integer for the clocks of the standard libraries).  to_time_t stands for the function of the
   clock; how it rounds is up to the implementation.  None if the assertion fails. *)
Definition time_point_to_timespec (K : Z) (to_time_t : Z -> Z) (time : Z) : option (Z * Z) :=
  let time_2 := to_time_t time in
  let time_3 := time_2 * K in
  let '(time_2, time_3) := if time_3 >? time then (time_2 - 1, (time_2 - 1) * K) else (time_2, time_3) in
  let nanoseconds := Z.quot ((time - time_3) * 10 ^ 9) K in
  if (nanoseconds >=? 0) && (nanoseconds <? 1000000000) then Some (time_2, nanoseconds) else None.

Inductive precision := Seconds | Milliseconds | Microseconds | Nanoseconds.

Section Formatter.
(* C: the type of characters.  Characters of the format are their ASCII codes.  long: the type. *)
Context {C : Type} (widen : Z -> C) (long : ity).

(* std::time_put::put() of the standard library.  conv is what the facet generates for a conversion, given the modifier (E
   or O), if any, and the conversion specifier.  Widening and narrowing of the format, which does not change it, is left
   out.  None if the format ends inside a conversion (meaning not specified by the C++ standard). *)
Fixpoint put (conv : option Z -> Z -> list C) (s : list Z) : option (list C) :=
  match s with
  | [] => Some []
  | c :: s =>
    if c =? 37 then
      match s with
      | [] => None
      | d :: s =>
        if (d =? 69) || (d =? 79) then
          match s with
          | [] => None
          | e :: s =>
            let? out := put conv s in
            Some (conv (Some d) e ++ out)
          end
        else
          let? out := put conv s in
          Some (conv None d ++ out)
      end
    else
      let? out := put conv s in
      Some (widen c :: out)
  end.

(* std::string_view::find(char, std::size_t) *)
Fixpoint index_of (ch : Z) (s : list Z) : option nat :=
  match s with
  | [] => None
  | c :: s => if c =? ch then Some O else option_map S (index_of ch s)
  end.
Definition find (s : list Z) (ch : Z) (i : nat) : option nat :=
  option_map (fun k => (i + k)%nat) (index_of ch (skipn i s)).

(* format_part: timestamp_formatter.hpp:274-281; None also if substr() throws *)
Definition format_part (conv : option Z -> Z -> list C) (format : list Z) (i j : nat) : option (list C) :=
  if (i <=? length format)%nat then
    let n := (j - i)%nat in
    put conv (firstn n (skipn i format))
  else None.

(* timestamp_formatter.hpp:255-272; nanoseconds is of type long, so the divisions are truncating and cannot overflow *)
Definition subseconds (nanoseconds : Z) (p : precision) : Z * Z :=
  match p with
  | Seconds => (0, 0)
  | Milliseconds => (3, Z.quot nanoseconds 1000000)
  | Microseconds => (6, Z.quot nanoseconds 1000)
  | Nanoseconds => (9, nanoseconds)
  end.

(* the loop in timestamp_formatter.hpp:286-302.  The result is i_0 and the output. *)
Fixpoint format_loop (fuel : nat) (conv : option Z -> Z -> list C) (format : list Z)
    (subsecond_digits subsecond_value : Z) (i_0 i_1 : nat) (out : list C) : option (nat * list C) :=
  match fuel with
  | O => None
  | S fuel =>
    match find format 37 i_1 with
    | None => Some (i_0, out)
    | Some i_2 =>
      let i_2 := S i_2 in
      if (i_2 <? length format)%nat then
        let? ch := nth_error format i_2 in
        let i_2 := S i_2 in
        if negb (ch =? 83) && negb (ch =? 84) then
          format_loop fuel conv format subsecond_digits subsecond_value i_0 i_2 out
        else
          let? part := format_part conv format i_0 i_2 in
          let? formatted := format_a widen long false subsecond_value 10 subsecond_digits in
          let? digits := formatted in
          let out := out ++ part ++ [widen 46] ++ digits in
          format_loop fuel conv format subsecond_digits subsecond_value i_2 i_2 out
      else Some (i_0, out)
    end
  end.

(* do_format: timestamp_formatter.hpp:250-306.  The broken down time enters through conv only. *)
Definition do_format (conv : option Z -> Z -> list C) (nanoseconds : Z) (format : list Z) (p : precision) :
    option (list C) :=
  let '(subsecond_digits, subsecond_value) := subseconds nanoseconds p in
  let n := length format in
  let? res :=
    (if subsecond_digits >? 0 then
       format_loop (S n) conv format subsecond_digits subsecond_value 0 0 []
     else Some (O, [])) in
  let '(i_0, out) := res in
  let? part := format_part conv format i_0 n in
  Some (out ++ part).

(* format_local and format_utc of a time point: timestamp_formatter.hpp:182-198 and 209-226.  breakdown is
   time_breakdown_local or time_breakdown_utc, and default is "%FT%T%z" or "%FT%TZ". *)
Definition format_time_point {tm : Type} (conv : tm -> option Z -> Z -> list C) (breakdown : Z -> tm) (default : list Z)
    (K : Z) (to_time_t : Z -> Z) (time : Z) (format : list Z) (p : precision) : option (list C) :=
  let? ts := time_point_to_timespec K to_time_t time in
  let '(tv_sec, tv_nsec) := ts in
  let format := match format with [] => default | _ => format end in
  do_format (conv (breakdown tv_sec)) tv_nsec format p.
End Formatter.

Definition default_local : list Z := [37; 70; 84; 37; 84; 37; 122].
Definition default_utc : list Z := [37; 70; 84; 37; 84; 90].
