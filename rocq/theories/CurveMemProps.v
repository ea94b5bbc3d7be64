(* Properties C153 to C156: the sequence memory, the curve memory and the trackball. *)

From Coq Require Import ZArith Bool List Lia.
From Verif Require Import CInt IntModel CurveMemModel CurveMemSpec CurveMemProofs CurveMemProofs2 ArrLib.
Import ListNotations.
Open Scope Z_scope.

(* --- C153 ----------------------------------------------------------------------- *)

(* For every capacity from 1 to the largest ptrdiff_t and every sequence of calls of
   push_back() and clear(), the calls are well defined (no access outside the buffer, no
   violated assertion), and the memory then holds exactly the last `capacity` values that
   were pushed since the last clear(), oldest first. *)
Theorem sequence_memory_exact : forall (T : Type) (d : T) cap ops, 1 <= cap < 2 ^ 63 ->
  exists m, fsm_calls (fsm_make d cap) ops = Some m /\
    let kept := lastn (Z.to_nat cap) (since_clear ops) in
    f_size m = length kept /\
    fsm_empty m = (match since_clear ops with [] => true | _ => false end) /\
    forall i, (i < f_size m)%nat -> fsm_at m i = nth_error kept i.
Proof.
  intros T d cap ops Hc. destruct (fsm_make_rep d cap Hc) as (m0 & E0 & H0). rewrite E0.
  destruct (fsm_calls_rep m0 (Z.to_nat cap) ops H0) as (m & E & H). exists m.
  split; [assumption|]. cbv zeta. split; [rewrite lastn_length; apply H|].
  split; [apply (fsm_rep_empty (Z.to_nat cap)); [assumption|lia]|].
  intros i Hi. apply (fsm_rep_at (Z.to_nat cap)); assumption.
Qed.

Example sequence_memory_ex :
  exists m, fsm_calls (fsm_make 0 3) (Push 9 :: Clear :: map Push [1; 2; 3; 4; 5]) = Some m /\
    map (fsm_at m) [0; 1; 2]%nat = [Some 3; Some 4; Some 5] /\ f_offset m = 2%nat.
Proof. eexists. split; [vm_compute; reflexivity|]. split; vm_compute; reflexivity. Qed.

(* A memory of capacity zero can be constructed, but the first push_back() accesses its
   buffer outside the bounds. *)
Theorem sequence_memory_zero : forall (T : Type) (d v : T),
  exists m, fsm_make d 0 = Some m /\ fsm_push_back m v = None.
Proof. intros. eexists. split; [vm_compute; reflexivity|]. reflexivity. Qed.

(* --- C154 ----------------------------------------------------------------------- *)

(* For all positive time spans and all numbers of samples from 2, and every sequence of
   calls of add_value() and clear() with times in non-decreasing order, all calls are well
   defined, and get_value(t) is, for every t, the value of the piecewise linear curve through
   the last `max_samples` samples of the values added since the last clear().  The length of
   the time slots, of which only the first value is sampled, is the smallest one with
   per * (max_samples - 1) >= millis_back. *)
Theorem curve_memory_exact : forall (V : Type) (d : V) lerp back maxs ops,
  1 <= back < 2 ^ 63 -> 2 <= maxs < 2 ^ 63 -> in_order ops ->
  (forall v t, In (Push (v, t)) ops -> - 2 ^ 63 <= t < 2 ^ 63) ->
  exists m per, fcm_calls (fcm_make d back maxs) ops = Some m /\
    smallest_per back (maxs - 1) per /\
    forall t, exists r, fcm_get_value d lerp m t = Some r /\
      curve_value d lerp (lastn (Z.to_nat maxs) (samples_of per (since_clear ops))) t r.
Proof.
  intros V d lerp back maxs ops Hb Hm Ho Ht.
  destruct (fcm_make_rep d back maxs Hb Hm) as (m0 & per & E0 & Hs & Hp & H0). rewrite E0.
  destruct (fcm_calls_rep m0 (Z.to_nat maxs) per ops) as (m & E & H); try assumption; try lia.
  { unfold in_range, imin, imax, t_long. cbn [isigned iwidth]. lia. }
  { intros v t Hi. specialize (Ht v t Hi). unfold in_range, imin, imax, t_long. cbn [isigned iwidth]. lia. }
  exists m, per. split; [assumption|]. split; [assumption|]. intros t.
  apply fcm_get_value_rep; [lia|lia| |assumption].
  apply (Ho ops []). symmetry. apply app_nil_r.
Qed.

(* a linear interpolation in whole numbers, for the examples *)
Definition lerp_z (x1 y1 x2 y2 x : Z) : Z := y1 + (y2 - y1) * (x - x1) / (x2 - x1).

Lemma in_order_pushes (h : list (Z * Z)) :
  (forall i, match nth_error h i, nth_error h (S i) with
             | Some a, Some b => snd a <= snd b | _, _ => True end) ->
  in_order (map Push h).
Proof.
  intros H pre post E.
  assert (Hpre : exists k, since_clear pre = firstn k h).
  { exists (length pre). assert (Ep : pre = map Push (firstn (length pre) h)).
    { rewrite <- firstn_map, E, firstn_app, Nat.sub_diag, firstn_O, firstn_all, app_nil_r. reflexivity. }
    assert (K : forall l : list (Z * Z), since_clear (map Push l) = l).
    { clear. intros l. induction l as [|x l IH] using rev_ind; [reflexivity|].
      rewrite map_app. cbn [map]. rewrite since_clear_app, IH. reflexivity. }
    rewrite Ep at 1. apply K. }
  destruct Hpre as (k & ->).
  assert (N : nondecreasing h).
  { intros i j a b Hij Ha. revert b. induction Hij as [|j Hij IH]; intros b Hb.
    - assert (a = b) by congruence. subst. lia.
    - specialize (H j). destruct (nth_error h j) as [c|] eqn:Ec.
      + rewrite Hb in H. specialize (IH c eq_refl). lia.
      + apply nth_error_None in Ec. assert (nth_error h (S j) <> None) as Hn by congruence.
        apply nth_error_Some in Hn. lia. }
  assert (F : forall i x, nth_error (firstn k h) i = Some x -> nth_error h i = Some x).
  { clear. revert h. induction k as [|k IH]; intros h i x; [destruct i; discriminate|].
    destruct h as [|y h]; [destruct i; discriminate|]. destruct i; [easy|]. cbn [firstn nth_error]. apply IH. }
  intros i j a b Hij Ha Hb. apply (N i j); auto.
Qed.

Example curve_memory_ex :
  let ops := map Push [(0, 0); (50, 5); (100, 10); (190, 19); (200, 20)] in
  in_order ops /\
  exists m, fcm_calls (fcm_make 0 20 3) ops = Some m /\
    map (fcm_get_value 0 lerp_z m) [0; 4; 15; 20; 21] =
    [Some 0; Some 40; Some 150; Some 200; Some 0].
Proof.
  split.
  - apply in_order_pushes. intros i. do 6 (destruct i as [|i]; [vm_compute; congruence || exact I|]).
    destruct i; exact I.
  - eexists. split; [vm_compute; reflexivity|vm_compute; reflexivity].
Qed.

(* --- C155 ----------------------------------------------------------------------- *)

(* Full statement: the memory reaches back `millis_back` milliseconds, that is, for times
   up to that long before the most recent call of add_value(), get_value() is the value of
   the curve through all samples, as if none had been forgotten.  It is false (below).  What
   holds: the same for times up to (max_samples - 2) * per milliseconds back. *)
Theorem curve_memory_reach_partial : forall (V : Type) (d : V) lerp back maxs ops v newest,
  1 <= back < 2 ^ 63 -> 2 <= maxs < 2 ^ 63 -> in_order (ops ++ [Push (v, newest)]) ->
  (forall w t, In (Push (w, t)) (ops ++ [Push (v, newest)]) -> - 2 ^ 63 <= t < 2 ^ 63) ->
  exists m per, fcm_calls (fcm_make d back maxs) (ops ++ [Push (v, newest)]) = Some m /\
    smallest_per back (maxs - 1) per /\
    forall t, newest - per * (maxs - 2) <= t ->
      exists r, fcm_get_value d lerp m t = Some r /\
        curve_value d lerp (samples_of per (since_clear ops ++ [(v, newest)])) t r.
Proof.
  intros V d lerp back maxs ops v newest Hb Hm Ho Ht.
  destruct (curve_memory_exact V d lerp back maxs _ Hb Hm Ho) as (m & per & E & Hs & H).
  { exact Ht. }
  exists m, per. split; [assumption|]. split; [assumption|]. intros t Hr.
  destruct (H t) as (r & Er & Hv). exists r. split; [assumption|].
  rewrite since_clear_app in Hv.
  assert (Hp : 0 < per) by (destruct Hs as (S1 & S2); nia).
  eapply curve_value_reach; [assumption| | | | |exact Hv].
  - lia.
  - specialize (Ho _ [] (eq_sym (app_nil_r _))). rewrite since_clear_app in Ho. assumption.
  - rewrite last_time_app. reflexivity.
  - cbn [snd]. lia.
Qed.

(* With the parameters of the virtual trackball: the position 100 milliseconds before the
   most recent event is not found although it was recorded. *)
Theorem curve_memory_reach_refuted : exists (ops : list (mem_op (Z * Z))) v newest,
  in_order (ops ++ [Push (v, newest)]) /\
  (forall w t, In (Push (w, t)) (ops ++ [Push (v, newest)]) -> - 2 ^ 63 <= t < 2 ^ 63) /\
  exists m, fcm_calls (fcm_make 0 g_millis_back g_max_samples) (ops ++ [Push (v, newest)]) = Some m /\
    smallest_per g_millis_back (g_max_samples - 1) 7 /\
    exists r, fcm_get_value 0 lerp_z m (newest - g_millis_back) = Some r /\
      ~ curve_value 0 lerp_z (samples_of 7 (since_clear ops ++ [(v, newest)]))
          (newest - g_millis_back) r.
Proof.
  set (h := (0, 0) :: (1300, 13) :: map (fun k => (0, 7 * Z.of_nat k)) (seq 2 14)).
  exists (map Push h), 0, 112.
  replace (map Push h ++ [Push (0, 112)]) with (map (@Push (Z * Z)) (h ++ [(0, 112)]))
    by (rewrite map_app; reflexivity).
  split; [|split].
  - apply in_order_pushes. intros i.
    do 17 (destruct i as [|i]; [vm_compute; (exact I || discriminate)|]). destruct i; exact I.
  - intros v t Hi. apply in_map_iff in Hi. destruct Hi as ([w u] & E & Hi).
    injection E as -> ->. vm_compute in Hi.
    repeat (destruct Hi as [Hi|Hi]; [injection Hi as _ <-; vm_compute; split; congruence|]). destruct Hi.
  - eexists. split; [vm_compute; reflexivity|]. split.
    + split; [vm_compute; congruence|]. unfold g_millis_back, g_max_samples. intros p. lia.
    + exists 1300. split; [vm_compute; reflexivity|].
      change (112 - g_millis_back) with 12.
      intros [(Hall & _)|[(s & rest & E & Hs & Hr)|(pre & a & b & post & E & Hab & Hr)]].
      * specialize (Hall (0, 14)). assert (14 < 12); [|lia]. apply Hall. vm_compute. tauto.
      * vm_compute in E. injection E as <- <-. cbn in Hs. lia.
      * vm_compute in E.
        destruct pre as [|x1 pre].
        -- injection E as <- <- _. destruct Hr as [(K & _)|(_ & K)]; [cbn in K; lia|].
           vm_compute in K. discriminate.
        -- destruct pre as [|x2 pre].
           ++ injection E as _ <- _ _. cbn in Hab. lia.
           ++ injection E as _ _ E.
              match type of E with _ = ?r => change r with (pre ++ a :: b :: post) in E end.
              assert (Hin : In a (pre ++ a :: b :: post)) by (apply in_or_app; right; left; reflexivity).
              rewrite <- E in Hin. clear E Hr.
              repeat (destruct Hin as [<-|Hin]; [cbn in Hab; lia|]). destruct Hin.
Qed.

(* A time span of zero is not ruled out by the documentation, but makes add_value() divide
   by zero. *)
Theorem curve_memory_zero_span : forall (V : Type) (d v : V) maxs t, 2 <= maxs < 2 ^ 63 ->
  exists m, fcm_make d 0 maxs = Some m /\ fcm_add_value m v t = None.
Proof.
  intros V d v maxs t Hm. unfold fcm_make.
  destruct (fsm_make_rep (d, 0) maxs ltac:(lia)) as (m & Em & _). rewrite Em. cbn [ArrLib.obind].
  rewrite wrap_id by (unfold ity_ok, in_range, imin, imax, t_size; cbn [isigned iwidth]; lia).
  rewrite IntProofs2.int_div_round_up_spec;
    try (unfold ity_ok, in_range, imin, imax, t_size, t_long; cbn [isigned iwidth]; lia); try lia.
  cbn [ArrLib.obind]. eexists. split; [reflexivity|].
  unfold fcm_add_value. cbn [c_per_barrier Z.opp]. rewrite Z.div_0_l by lia.
  unfold cdiv. cbn [fst snd]. reflexivity.
Qed.

(* --- C156 ----------------------------------------------------------------------- *)

(* For every sequence of events of the user interface in which the track events of each
   grab are in order of time (times that are representable), all calls are well defined (no
   read of an indeterminate member, no overflow, no violated assertion), and release()
   - does nothing if there is no grab;
   - stops the ball if nothing was tracked, or if the grab lasted less than 200 ms and the
     last position is near the first one;
   - otherwise uses the position `back` ms before the last event, where `back` is 100 or the
     duration of the grab if that is less.  That position is taken from the curve through the
     last 16 samples of this grab alone, and it is always a position on that curve, and never
     the default that stands for an unknown future. *)
Theorem trackball_release_exact : forall (V : Type) (d : V) lerp near es,
  (forall pre post, es = pre ++ post -> grab_ok (grab pre)) ->
  exists b b' out, tball_calls d lerp near (tball_make d) es = Some b /\
    tball_release d lerp near b = Some (b', out) /\ t_acquired b' = false /\
    match grab es with
    | None => out = Ignored
    | Some [] => out = Stopped
    | Some (((v0, t0) :: r) as h) =>
      let (v1, t1) := last h (v0, t0) in
      if (t1 - t0 <? 200) && near v0 v1 then out = Stopped
      else
        let back := Z.min 100 (t1 - t0) in
        let kept := lastn 16 (samples_of 7 (rebased h)) in
        exists pos, out = Spun pos back /\
          (exists s, In s kept /\ t1 - t0 - back <= snd s) /\
          curve_value d lerp kept (t1 - t0 - back) pos
    end.
Proof.
  intros V d lerp near es Hok. destruct (tball_calls_rep d lerp near es Hok) as (b & Eb & Hb).
  specialize (Hok es [] (eq_sym (app_nil_r _))).
  destruct (tball_release_rep d lerp near b (grab es) Hb Hok) as (b' & out & E & Hb' & Hout).
  exists b, b', out. split; [assumption|]. split; [assumption|]. split; [apply Hb'|]. exact Hout.
Qed.

Definition near4 (a b : Z) : bool := Z.abs (a - b) <? 4.

Example trackball_release_ex :
  let es := [Acquire; Track 5 1000; Release; Acquire; Track 0 5000; Track 90 5060; Track 300 5160] in
  (forall pre post, es = pre ++ post -> grab_ok (grab pre)) /\
  exists b b', tball_calls 0 lerp_z near4 (tball_make 0) es = Some b /\
    tball_release 0 lerp_z near4 b = Some (b', Spun 90 100).
Proof.
  split.
  - intros pre post E.
    assert (K : pre = firstn (length pre)
      [Acquire; Track 5 1000; Release; Acquire; Track 0 5000; Track 90 5060; Track 300 5160]).
    { rewrite E, firstn_app, Nat.sub_diag, firstn_O, firstn_all, app_nil_r. reflexivity. }
    rewrite K. clear. generalize (length pre). intros n.
    do 8 (destruct n as [|n];
      [cbn; first [exact I|split;
         [intros i j a b Hij Ha Hb;
          do 4 (destruct i as [|i]; [do 4 (destruct j as [|j]; [cbn in Ha, Hb; first
             [lia|discriminate|injection Ha as <-; injection Hb as <-; cbn; lia]|]);
             destruct j; discriminate|]); destruct i; discriminate
         |intros s Hs; cbn in Hs; repeat (destruct Hs as [<-|Hs]; [cbn; lia|]); destruct Hs]]|]).
    cbn. split;
      [intros i j a b Hij Ha Hb;
       do 4 (destruct i as [|i]; [do 4 (destruct j as [|j]; [cbn in Ha, Hb; first
          [lia|discriminate|injection Ha as <-; injection Hb as <-; cbn; lia]|]);
          destruct j; discriminate|]); destruct i; discriminate
      |intros s Hs; cbn in Hs; repeat (destruct Hs as [<-|Hs]; [cbn; lia|]); destruct Hs].
  - eexists _, _. split; [vm_compute; reflexivity|vm_compute; reflexivity].
Qed.

(* --- C157 ----------------------------------------------------------------------- *)

Lemma last_nth {A} (l : list A) d : l <> [] -> nth_error l (length l - 1) = Some (last l d).
Proof.
  destruct l as [|x l] using rev_ind; [congruence|]. intros _. rewrite last_last, app_length.
  cbn [length]. rewrite nth_error_app2 by lia. replace (_ - _)%nat with 0%nat by lia. reflexivity.
Qed.

(* Full statement: the factor 1000.0 / millis, by which release() scales the spin, is finite.
   It is false (below): events of the same millisecond make it a division by zero.  What
   holds: the divisor lies between 0 and 100, and is zero only if the grab lasted zero
   milliseconds. *)
Theorem spin_divisor_partial : forall (V : Type) (d : V) lerp near es,
  (forall pre post, es = pre ++ post -> grab_ok (grab pre)) ->
  forall b b' pos millis, tball_calls d lerp near (tball_make d) es = Some b ->
  tball_release d lerp near b = Some (b', Spun pos millis) ->
  0 <= millis <= 100 /\
  exists h first final, grab es = Some h /\ hd_error h = Some first /\
    nth_error h (length h - 1) = Some final /\ (millis = 0 <-> snd final = snd first).
Proof.
  intros V d lerp near es Hok b b' pos millis Eb Er.
  destruct (trackball_release_exact V d lerp near es Hok) as (b1 & b2 & out & E1 & E2 & _ & Hout).
  specialize (Hok es [] (eq_sym (app_nil_r _))).
  assert (b1 = b) by congruence. subst b1. assert (out = Spun pos millis) by congruence. subst out.
  destruct (grab es) as [[|[v0 t0] r]|]; [discriminate| |discriminate].
  destruct Hok as (Hnd & _).
  pose proof (last_In ((v0, t0) :: r) (v0, t0) ltac:(discriminate)) as Hin.
  assert (Hnth : nth_error ((v0, t0) :: r) (length ((v0, t0) :: r) - 1) = Some (last ((v0, t0) :: r) (v0, t0))).
  { apply last_nth. discriminate. }
  destruct (last ((v0, t0) :: r) (v0, t0)) as [v1 t1] eqn:El.
  pose proof (nondecreasing_first v0 t0 r _ Hnd Hin) as H01. cbn [snd] in H01.
  destruct ((t1 - t0 <? 200) && near v0 v1); [discriminate|].
  destruct Hout as (pos' & Ho & _). assert (millis = Z.min 100 (t1 - t0)) by congruence. subst millis.
  split; [lia|]. exists ((v0, t0) :: r), (v0, t0), (v1, t1). split; [reflexivity|]. split; [reflexivity|].
  split; [assumption|]. cbn [snd]. lia.
Qed.

Theorem spin_divisor_refuted : exists (es : list (tb_event Z)) b b' pos,
  (forall pre post, es = pre ++ post -> grab_ok (grab pre)) /\
  tball_calls 0 lerp_z near4 (tball_make 0) es = Some b /\
  tball_release 0 lerp_z near4 b = Some (b', Spun pos 0).
Proof.
  exists [Acquire; Track 10 1000; Track 20 1000]. eexists _, _, _.
  split; [|split; [vm_compute; reflexivity|vm_compute; reflexivity]].
  intros pre post E.
  assert (K : pre = firstn (length pre) [Acquire; Track 10 1000; Track 20 1000]).
  { rewrite E, firstn_app, Nat.sub_diag, firstn_O, firstn_all, app_nil_r. reflexivity. }
  rewrite K. clear. generalize (length pre). intros n.
  assert (G : forall h : list (Z * Z), (forall s, In s h -> snd s = 1000) -> grab_ok (Some h)).
  { intros h H. split.
    - intros i j a b _ Ha Hb. apply nth_error_In in Ha, Hb. rewrite (H a Ha), (H b Hb). lia.
    - intros s Hs. rewrite (H s Hs). lia. }
  destruct n as [|[|[|n]]]; [exact I| | |].
  - apply (G []). intros s [].
  - apply (G [(10, 1000)]). intros s [<-|[]]. reflexivity.
  - cbn [firstn]. rewrite firstn_nil. apply (G [(10, 1000); (20, 1000)]).
    intros s [<-|[<-|[]]]; reflexivity.
Qed.

Print Assumptions sequence_memory_exact.
Print Assumptions sequence_memory_zero.
Print Assumptions curve_memory_exact.
Print Assumptions curve_memory_reach_partial.
Print Assumptions curve_memory_reach_refuted.
Print Assumptions curve_memory_zero_span.
Print Assumptions trackball_release_exact.
Print Assumptions spin_divisor_partial.
Print Assumptions spin_divisor_refuted.
