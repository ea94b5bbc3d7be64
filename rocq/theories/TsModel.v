(* Model of archon::display::impl::TimestampUnwrapper
   (src/archon/display/noinst/timestamp_unwrapper.hpp).

   R: std::chrono::milliseconds::rep, a signed type.  N: number of bits of a
   primary timestamp.  Secondary time points are integers counting ticks of the
   steady clock; K is the number of ticks per millisecond (10^6 for a nanosecond
   clock).  The conversion of the tick difference is modelled mathematically
   (the difference of two time points of the 64-bit clock does not overflow
   within centuries). *)
From Coq Require Import ZArith.
From Verif Require Import CInt IntModel.
Open Scope Z_scope.

(* data members: timestamp_unwrapper.hpp:89-92 *)
Record ts_state := TS { ts_have : bool; ts_start : Z; ts_start2 : Z }.
Definition ts_init : ts_state := TS false 0 0.

(* std::chrono::round to milliseconds: nearest, ties to even ([time.duration.cast]) *)
Definition chrono_round (K d : Z) : Z :=
  let t0 := d / K in
  let t1 := t0 + 1 in
  let diff0 := d - t0 * K in
  let diff1 := t1 * K - d in
  if diff0 =? diff1 then (if Z.even t0 then t0 else t1)
  else if diff0 <? diff1 then t0 else t1.

(* unwrap_next_timestamp: timestamp_unwrapper.hpp:127-157.  None: failed
   assertion or undefined behaviour; Some (_, None): exception thrown by int_add. *)
Definition ts_unwrap (R : ity) (N K : Z) (st : ts_state) (timestamp timestamp_2 : Z)
  : option (ts_state * option Z) :=
  let n := nvb R in
  if negb ((0 <=? timestamp) && (timestamp <=? 2 ^ N - 1)) then None
  else if N <? n then
    if ts_have st then
      if negb (timestamp_2 >=? ts_start2 st) then None
      else
        let millis := chrono_round K (timestamp_2 - ts_start2 st) in
        if negb (in_rangeb R millis) then None
        else
          let* module := cshl (R, 1) N in
          let* diff := csub (R, timestamp) (R, ts_start st) in
          let* half := cdiv module (t_int, 2) in
          let* r := csub half diff in
          let* add := try_int_add R (promo R) millis (snd r) in
          if fst add then
            let* q := cdiv (R, snd add) module in
            let* offset := cmul q module in
            let* t := cadd offset (R, timestamp) in
            Some (st, Some (snd t))
          else Some (st, None)
    else Some (TS true timestamp timestamp_2, Some timestamp)
  else if negb (timestamp <=? 2 ^ n - 1) then None
  else Some (st, Some timestamp).

(* a whole run: list of (timestamp, secondary time point); every call must return *)
Fixpoint ts_run (R : ity) (N K : Z) (st : ts_state) (inputs : list (Z * Z)) : option (list Z) :=
  match inputs with
  | nil => Some nil
  | cons (a, b) rest =>
    let* r := ts_unwrap R N K st a b in
    match snd r with
    | Some t => let* ts := ts_run R N K (fst r) rest in Some (cons t ts)
    | None => None
    end
  end.
