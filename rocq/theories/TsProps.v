(* C37: timestamp unwrapping recovers the true time. *)
From Coq Require Import ZArith Lia List Bool ZifyBool.
From Verif Require Import CInt IntModel IntProofs TsModel.
Import ListNotations.
Open Scope Z_scope.

Lemma chrono_round_bounds K d : 0 < K -> - K <= 2 * (chrono_round K d * K - d) <= K.
Proof.
  intros HK. unfold chrono_round.
  pose proof (Z.div_mod d K ltac:(lia)). pose proof (Z.mod_pos_bound d K HK).
  destruct (Z.eqb_spec (d - d / K * K) ((d / K + 1) * K - d)).
  - destruct (Z.even (d / K)); lia.
  - destruct (Z.ltb_spec (d - d / K * K) ((d / K + 1) * K - d)); lia.
Qed.

Lemma chrono_round_nonneg K d : 0 < K -> 0 <= d -> 0 <= chrono_round K d.
Proof.
  intros HK Hd. pose proof (Z.div_pos d K Hd HK). unfold chrono_round.
  destruct (_ =? _); [destruct (Z.even _); lia|]. destruct (_ <? _); lia.
Qed.

Lemma cdiv_small_pos t x y : ity_ok t -> promo t = t -> in_range t x -> in_range t y -> 0 <= x -> 0 < y ->
  cdiv (t, x) (t, y) = Some (t, x / y).
Proof.
  intros Ht Hp Hx Hy H1 H2.
  assert (x / y <= x) by (apply Z.div_le_upper_bound; nia).
  assert (0 <= x / y) by (apply Z.div_pos; lia).
  rewrite cdiv_same; auto; rewrite ?Hp, ?Z.quot_div_nonneg by lia; try reflexivity; try lia.
  rewrite in_range_nvb in *. destruct (isigned t); lia.
Qed.

Lemma promo32 R : 32 <= iwidth R -> promo R = R.
Proof. apply promo_wide. Qed.

Lemma ts_step R N K s p0 E p : ity_ok R -> isigned R = true -> 32 <= iwidth R ->
  0 <= N < nvb R -> 0 <= s < 2 ^ N -> 0 <= E -> s + E < 2 ^ nvb R -> p0 <= p ->
  let r := chrono_round K (p - p0) in
  0 <= r < 2 ^ nvb R -> - 2 ^ N <= 2 * (r - E) < 2 ^ N ->
  ts_unwrap R N K (TS true s p0) ((s + E) mod 2 ^ N) p = Some (TS true s p0, Some (s + E)).
Proof.
  intros HR SR HW HN Hs HE Ht Hp r Hr Hskew. unfold ts_unwrap.
  set (M := 2 ^ N) in *. assert (HM : 0 < M) by (apply Z.pow_pos_nonneg; lia).
  pose proof (Z.mod_pos_bound (s + E) M HM) as Hts.
  set (ts := (s + E) mod M) in *. set (q := (s + E) / M).
  assert (Hq : s + E = M * q + ts) by (unfold q, ts; apply Z.div_mod; lia).
  assert (Hq0 : 0 <= q) by (apply Z.div_pos; lia).
  replace (negb ((0 <=? ts) && (ts <=? M - 1))) with false by lia.
  replace (N <? nvb R) with true by lia. cbn [ts_have ts_start ts_start2].
  replace (negb (p >=? p0)) with false by lia. fold r.
  assert (IR : forall x, in_range R x <-> - 2 ^ nvb R <= x < 2 ^ nvb R).
  { intros x. rewrite in_range_nvb, SR. reflexivity. }
  replace (in_rangeb R r) with true by (symmetry; apply in_rangeb_spec, IR; lia). cbn [negb].
  pose proof (promo32 R HW) as HP.
  (* 2^nvb = M * c with c >= 2 *)
  set (c := 2 ^ (nvb R - N - 1)).
  assert (Hc : 1 <= c) by (unfold c; pose proof (Z.pow_pos_nonneg 2 (nvb R - N - 1)); lia).
  assert (HB : 2 ^ nvb R = M * (2 * c)).
  { unfold M, c. change 2 with (2 ^ 1) at 3. rewrite <- !Z.pow_add_r by lia. f_equal. lia. }
  assert (HMr : M <= 2 ^ nvb R - 1) by nia.
  assert (H4 : 4 <= 2 ^ nvb R).
  { change 4 with (2 ^ 2). apply Z.pow_le_mono_r; unfold nvb; rewrite ?SR; lia. }
  unfold cshl. cbn [fst snd]. rewrite HP. replace (0 <=? N) with true by lia.
  assert (nvb R <= iwidth R) by (unfold nvb; destruct (isigned R); lia).
  replace (N <? iwidth R) with true by lia. cbn [andb obind].
  rewrite Z.shiftl_mul_pow2, Z.mul_1_l by lia. fold M. rewrite (wrap_id R M) by (auto; apply IR; lia).
  unfold csub at 1. rewrite cbin_same by (auto; apply IR; nia). rewrite HP.
  rewrite norm_in by (auto; apply IR; nia). cbn [obind].
  assert (Huac : uac R t_int = R).
  { unfold uac. rewrite HP. change (promo t_int) with t_int. rewrite SR. cbn [isigned t_int Bool.eqb].
    change (iwidth t_int) with 32. replace (32 <=? iwidth R) with true by lia. reflexivity. }
  assert (Hhalf : cdiv (R, M) (t_int, 2) = Some (R, M / 2)).
  { unfold cdiv. cbn [fst snd]. rewrite Huac.
    rewrite (wrap_id R M), (wrap_id R 2) by (auto; apply IR; nia).
    replace (2 =? 0) with false by lia. rewrite Z.quot_div_nonneg by lia.
    assert (0 <= M / 2 <= M) by (split; [apply Z.div_pos; lia|apply Z.div_le_upper_bound; lia]).
    rewrite norm_in by (auto; apply IR; nia). reflexivity. }
  rewrite Hhalf. cbn [obind].
  assert (Hh : 0 <= M / 2 /\ 2 * (M / 2) <= M /\ M <= 2 * (M / 2) + 1).
  { pose proof (Z.div_mod M 2 ltac:(lia)). pose proof (Z.mod_pos_bound M 2 ltac:(lia)). lia. }
  unfold csub. rewrite cbin_same by (auto; apply IR; nia). rewrite HP.
  rewrite norm_in by (auto; apply IR; nia). cbn [obind snd].
  (* the checked addition *)
  assert (HMe : M = 1 \/ 2 * (M / 2) = M).
  { destruct (Z.eq_dec N 0) as [->|]; [left; reflexivity|right].
    unfold M. replace (2 ^ N) with (2 * 2 ^ (N - 1)) by (rewrite <- Z.pow_succ_r by lia; f_equal; lia).
    rewrite (Z.mul_comm 2 (2 ^ (N - 1))), Z.div_mul by lia. lia. }
  assert (Hsum : M * q <= r + (M / 2 - (ts - s)) < M * q + M) by lia.
  assert (HqB : M * q + M <= 2 ^ nvb R).
  { assert (M * q < M * (2 * c)) by lia. assert (q < 2 * c) by nia. nia. }
  rewrite try_int_add_spec by (auto; apply IR; nia).
  rewrite add_res_true by (apply IR; nia). cbn [obind fst snd].
  rewrite cdiv_small_pos by (auto; try (apply IR; nia); nia). cbn [obind].
  replace ((r + (M / 2 - (ts - s))) / M) with q.
  2:{ symmetry. symmetry. apply (Z.div_unique_pos _ _ _ (r + (M / 2 - (ts - s)) - M * q)); lia. }
  unfold cmul. rewrite cbin_same by (auto; apply IR; nia). rewrite HP.
  rewrite norm_in by (auto; apply IR; nia). cbn [obind].
  unfold cadd. rewrite cbin_same by (auto; apply IR; nia). rewrite HP.
  rewrite norm_in by (auto; apply IR; nia). cbn [obind snd]. do 3 f_equal. lia.
Qed.

(* Setting: the true time of the first call is t0 (milliseconds, any number of
   wrap-arounds ago); the later calls happen at true times t0 + E with secondary
   clock readings p, for (E, p) in later.  Primary timestamps are the N low-order
   bits of the true times.  The skew condition says that the rounded elapsed
   time of the secondary clock is within half a period of the true one. *)
Theorem timestamp_unwrap_exact :
  forall R N K t0 p0 (later : list (Z * Z)),
  ity_ok R -> isigned R = true -> 32 <= iwidth R -> 0 <= N < iwidth R - 1 ->
  (forall E p, In (E, p) later ->
     0 <= E /\ p0 <= p /\
     t0 mod 2 ^ N + E < 2 ^ (iwidth R - 1) /\                      (* result representable *)
     0 <= chrono_round K (p - p0) < 2 ^ (iwidth R - 1) /\
     - 2 ^ N <= 2 * (chrono_round K (p - p0) - E) < 2 ^ N) ->
  ts_run R N K ts_init ((t0 mod 2 ^ N, p0) :: map (fun x => ((t0 + fst x) mod 2 ^ N, snd x)) later)
  = Some (t0 mod 2 ^ N :: map (fun x => t0 mod 2 ^ N + fst x) later).
Proof.
  intros R N K t0 p0 later HR SR HW HN Hl. cbn [ts_run].
  assert (Hnvb : nvb R = iwidth R - 1) by (unfold nvb; now rewrite SR).
  assert (HM : 0 < 2 ^ N) by (apply Z.pow_pos_nonneg; lia).
  set (M := 2 ^ N) in *. pose proof (Z.mod_pos_bound t0 M HM) as Hs.
  unfold ts_unwrap at 1. fold M. cbn [ts_init ts_have].
  replace (negb ((0 <=? t0 mod M) && (t0 mod M <=? M - 1))) with false by lia.
  replace (N <? nvb R) with true by lia. cbn [obind fst snd].
  assert (Hrun : ts_run R N K (TS true (t0 mod M) p0) (map (fun x => ((t0 + fst x) mod M, snd x)) later)
                 = Some (map (fun x => t0 mod M + fst x) later)).
  { induction later as [|[E p] later IH]; [reflexivity|]. cbn [map ts_run fst snd].
    destruct (Hl E p (or_introl eq_refl)) as (H1 & H2 & H3 & H4 & H5).
    replace ((t0 + E) mod M) with ((t0 mod M + E) mod M) by (rewrite Z.add_mod_idemp_l by lia; reflexivity).
    unfold M at 2. rewrite ts_step; [|auto; rewrite ?Hnvb; auto; fold M; lia ..].
    cbn [obind fst snd]. fold M. rewrite IH; [reflexivity|]. intros E' p' Hin. apply Hl. now right. }
  rewrite Hrun. reflexivity.
Qed.

(* In terms of clock ticks: a skew of less than (2^N - 1)/2 milliseconds suffices. *)
Theorem timestamp_unwrap_exact_ticks :
  forall R N K t0 p0 (later : list (Z * Z)),
  ity_ok R -> isigned R = true -> 32 <= iwidth R -> 0 <= N < iwidth R - 1 -> 0 < K ->
  (forall E p, In (E, p) later ->
     0 <= E /\ p0 <= p /\
     t0 mod 2 ^ N + E < 2 ^ (iwidth R - 1) /\ p - p0 < K * (2 ^ (iwidth R - 1) - 1) /\
     2 * Z.abs ((p - p0) - K * E) < K * (2 ^ N - 1)) ->
  ts_run R N K ts_init ((t0 mod 2 ^ N, p0) :: map (fun x => ((t0 + fst x) mod 2 ^ N, snd x)) later)
  = Some (t0 mod 2 ^ N :: map (fun x => t0 mod 2 ^ N + fst x) later).
Proof.
  intros R N K t0 p0 later HR SR HW HN HK Hl. apply timestamp_unwrap_exact; auto.
  intros E p Hin. destruct (Hl E p Hin) as (H1 & H2 & H3 & H4 & H5).
  pose proof (chrono_round_bounds K (p - p0) HK) as Hb.
  pose proof (chrono_round_nonneg K (p - p0) HK ltac:(lia)).
  set (r := chrono_round K (p - p0)) in *.
  split; [assumption|]. split; [assumption|]. split; [assumption|]. split; [split; [assumption|nia]|].
  assert (- K * 2 ^ N < K * (2 * (r - E)) < K * 2 ^ N) by lia. nia.
Qed.

(* a 32-bit counter that wraps three times (about 150 days later), with one
   second of clock skew; nanosecond ticks *)
Example timestamp_ex :
  let t0 := 4294960000 in let E := 3 * 2 ^ 32 + 10000 in
  ts_run (ITy 64 true) 32 1000000 ts_init
    [(t0 mod 2 ^ 32, 5); ((t0 + E) mod 2 ^ 32, 5 + 1000000 * (E + 1000))]
  = Some [t0; t0 + E].
Proof. vm_compute. reflexivity. Qed.

(* At tick precision "less than half a period" is not enough: the rounding to
   milliseconds can push the elapsed time onto the half period.  Here the
   secondary clock is one nanosecond short of half a period ahead. *)
Theorem timestamp_unwrap_ticks_half_period_refuted :
  exists R N K t0 p0 E p,
    ity_ok R /\ isigned R = true /\ 32 <= iwidth R /\ 0 <= N < iwidth R - 1 /\ 0 < K /\
    0 <= E /\ p0 <= p /\ 2 * Z.abs ((p - p0) - K * E) < K * 2 ^ N /\
    ts_run R N K ts_init [(t0 mod 2 ^ N, p0); ((t0 + E) mod 2 ^ N, p)]
    = Some [t0 mod 2 ^ N; t0 mod 2 ^ N + E + 2 ^ N].
Proof.
  exists (ITy 64 true), 32, 1000000, 0, 0, 5, (1000000 * (5 + 2 ^ 31) - 1).
  split; [vm_compute; intuition congruence|]. split; [reflexivity|].
  split; [vm_compute; congruence|]. split; [vm_compute; intuition congruence|].
  split; [lia|]. split; [lia|]. split; [lia|]. split; [lia|]. vm_compute. reflexivity.
Qed.

Print Assumptions timestamp_unwrap_exact.
Print Assumptions timestamp_unwrap_ticks_half_period_refuted.
Print Assumptions timestamp_unwrap_exact_ticks.
