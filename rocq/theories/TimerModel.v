(* Model of the elapsed time of a timer (core/timer.cpp) *)
From Coq Require Import ZArith Bool.
From Verif Require Import CInt IntModel ArrLib.
Local Open Scope Z_scope.

(* the type of a point in time: struct timespec *)
Record timespec := TS { tv_sec : Z; tv_nsec : Z }.

(* What is returned: a number of seconds plus a number of billionths.  Simplification: the value is not rounded to double *)
Record elapsed := El { e_sec : Z; e_nsec : Z }.

(* Timer::get_elapsed_time: core/timer.cpp:197-222, where the time has been obtained already.  tt is std::time_t.  None if
   an assertion fails, or if behaviour is undefined; type long has room for all values of nsec. *)
Definition get_elapsed_time (tt : ity) (start time : timespec) : option elapsed :=
  if negb ((0 <=? tv_nsec time) && (tv_nsec time <? 1000000000)) then None else
  if negb ((0 <=? tv_nsec start) && (tv_nsec start <? 1000000000)) then None else
  if tv_sec start <=? tv_sec time then
    let? r := try_int_sub tt tt (tv_sec time) (tv_sec start) in
    let (good, sec) := r : bool * Z in
    if good then
      if negb (0 <=? sec) then None else
      let nsec := tv_nsec time - tv_nsec start in
      if nsec <? 0 then
        if 0 <? sec then
          let sec := sec - 1 in
          let nsec := nsec + 1000000000 in
          if negb (0 <? nsec) then None else
          Some (El sec nsec)
        else Some (El 0 0)
      else Some (El sec nsec)
    else Some (El (imax tt) 0)
  else Some (El 0 0).
