(* C218: elapsed time *)
From Coq Require Import ZArith Bool Lia.
From Verif Require Import CInt IntModel IntSpec IntProps TimerModel ArrLib.
Local Open Scope Z_scope.

(* a point in time as a number of nanoseconds, and what is a valid one *)
Definition nanos (t : timespec) : Z := tv_sec t * 1000000000 + tv_nsec t.
Definition valid (tt : ity) (t : timespec) : Prop := representable tt (tv_sec t) /\ 0 <= tv_nsec t < 1000000000.

(* the elapsed time is the difference when that is not negative, and zero otherwise, except that when the difference in
   whole seconds is more than std::time_t has room for, it is the greatest number of seconds, which is not too much *)
Theorem timer_elapsed : forall tt start time, ity_ok tt -> isigned tt = true -> valid tt start -> valid tt time ->
  exists e, get_elapsed_time tt start time = Some e /\ 0 <= e_sec e <= imax tt /\ 0 <= e_nsec e < 1000000000 /\
  (tv_sec time - tv_sec start <= imax tt -> e_sec e * 1000000000 + e_nsec e = Z.max 0 (nanos time - nanos start)) /\
  (imax tt < tv_sec time - tv_sec start -> e_sec e = imax tt /\ e_nsec e = 0 /\
    imax tt * 1000000000 < nanos time - nanos start).
Proof.
  intros tt [s0 n0] [s n] Hok Hs [R0 B0] [R B]. cbn [tv_sec tv_nsec] in *. unfold nanos. cbn [tv_sec tv_nsec].
  pose proof (checked_sub_exact tt tt s s0 Hok Hok R R0) as C.
  assert (IM : 0 < imax tt).
  { unfold ity_ok, imax in *. rewrite Hs in *. assert (2 ^ 1 <= 2 ^ (iwidth tt - 1)) by (apply Z.pow_le_mono_r; lia). lia. }
  assert (IN : imin tt < 0).
  { unfold imin, imax in *. rewrite Hs in *. lia. }
  unfold get_elapsed_time. cbn [tv_sec tv_nsec].
  destruct (Z.leb_spec 0 n), (Z.ltb_spec n 1000000000); try lia.
  destruct (Z.leb_spec 0 n0), (Z.ltb_spec n0 1000000000); try lia. cbn [andb negb].
  destruct (Z.leb_spec s0 s) as [L|L].
  2: { exists (El 0 0). cbn [e_sec e_nsec]. repeat split; lia. }
  destruct (Z.le_gt_cases (s - s0) (imax tt)) as [F|F].
  - assert (E : try_int_sub tt tt s s0 = Some (true, s - s0)).
    { destruct C as [(_ & C)|(C & _)]; [exact C|]. exfalso. apply C. unfold representable, imax, imin in *. rewrite Hs in *. lia. }
    rewrite E. cbn [obind]. destruct (Z.leb_spec 0 (s - s0)); try lia. cbn [negb].
    destruct (Z.ltb_spec (n - n0) 0).
    + destruct (Z.ltb_spec 0 (s - s0)).
      * destruct (Z.ltb_spec 0 (n - n0 + 1000000000)); try lia. cbn [negb]. eexists. split; [reflexivity|].
        cbn [e_sec e_nsec]. repeat split; lia.
      * eexists. split; [reflexivity|]. cbn [e_sec e_nsec]. repeat split; lia.
    + eexists. split; [reflexivity|]. cbn [e_sec e_nsec]. repeat split; lia.
  - assert (E : exists v, try_int_sub tt tt s s0 = Some (false, v)).
    { destruct C as [(C & _)|(_ & C)]; [|eexists; exact C]. exfalso. unfold representable, imax in *. rewrite Hs in *. lia. }
    destruct E as (v & E). rewrite E. cbn [obind]. eexists. split; [reflexivity|]. cbn [e_sec e_nsec]. repeat split; lia.
Qed.

Definition t64 : ity := ITy 64 true.

Example timer_elapsed_case : valid t64 (TS 5 700000000) /\ valid t64 (TS 7 200000000) /\ valid t64 (TS (- 2 ^ 63) 0) /\
  get_elapsed_time t64 (TS 5 700000000) (TS 7 200000000) = Some (El 1 500000000) /\
  get_elapsed_time t64 (TS 7 200000000) (TS 7 100000000) = Some (El 0 0) /\
  get_elapsed_time t64 (TS (- 2 ^ 63) 0) (TS 7 200000000) = Some (El (2 ^ 63 - 1) 0).
Proof. unfold valid, representable. cbn [tv_sec tv_nsec t64 isigned iwidth]. repeat split; try lia; vm_compute; reflexivity. Qed.

Print Assumptions timer_elapsed.
