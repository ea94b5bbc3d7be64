From Coq Require Import ZArith Lia Bool List ZifyBool.
From Verif Require Import CInt IntModel IntSpec IntProofs IntProofs2 IntProofs3 IntProofs4.
From Verif Require Import ArrLib IntBitCopyModel IntBitCopyProofs IntBitCopyProofs2.
From Verif Require Import BitMediumModel BitMediumSpec BitMediumProofs.
Open Scope Z_scope.

(* ---- bits of a scaled number ---- *)

Lemma scale_prefix n m v i : 1 <= n -> 0 <= i < m -> 0 <= v < 2 ^ n ->
  unit_scale n m v / 2 ^ (m - 1 - i) = unit_scale n (i + 1) v.
Proof.
  intros Hn Hi Hv. unfold unit_scale. pose proof (pow2_ge2 n Hn).
  pose proof (pow2_pos' (m - 1 - i) ltac:(lia)). pose proof (pow2_pos' (i + 1) ltac:(lia)).
  assert (E : 2 ^ m = 2 ^ (i + 1) * 2 ^ (m - 1 - i)).
  { rewrite <- Z.pow_add_r by lia. f_equal. lia. }
  destruct (v =? 2 ^ n - 1).
  - symmetry. apply Z.div_unique with (2 ^ (m - 1 - i) - 1); nia.
  - rewrite Z.div_div by lia. rewrite E, Z.mul_assoc. apply Z.div_mul_cancel_r; lia.
Qed.

Lemma repunit n q : 1 <= n -> (0 <= q) -> exists c, 2 ^ (n * q) - 1 = c * (2 ^ n - 1).
Proof.
  intros Hn. revert q. apply natlike_ind.
  - exists 0. now rewrite Z.mul_0_r.
  - intros q Hq [c IH]. exists (c * 2 ^ n + 1).
    replace (n * Z.succ q) with (n * q + n) by lia. rewrite Z.pow_add_r by lia.
    replace (2 ^ (n * q)) with (c * (2 ^ n - 1) + 1) by lia. ring.
Qed.

Lemma odd_scale_period n v q j : 1 <= n -> 0 <= q -> 0 <= j -> 0 <= v < 2 ^ n ->
  Z.odd (unit_scale n (n * q + j + 1) v) = Z.odd (unit_scale n (j + 1) v).
Proof.
  intros Hn Hq Hj Hv. pose proof (pow2_ge2 n Hn). destruct (repunit n q Hn Hq) as [c Hc].
  assert (E2 : 2 ^ (j + 1) = 2 * 2 ^ j) by (rewrite <- Z.pow_succ_r by lia; f_equal; lia).
  assert (Hnq : 0 <= n * q) by nia.
  assert (Es : 2 ^ (n * q + j + 1) = 2 ^ (n * q) * 2 ^ (j + 1)).
  { rewrite <- Z.pow_add_r by lia. f_equal. lia. }
  unfold unit_scale. destruct (v =? 2 ^ n - 1).
  - rewrite Es, E2. replace (2 ^ (n * q) * (2 * 2 ^ j) - 1) with (-1 + 2 * (2 ^ (n * q) * 2 ^ j)) by ring.
    replace (2 * 2 ^ j - 1) with (-1 + 2 * 2 ^ j) by ring. now rewrite !Z.odd_add_mul_2.
  - rewrite Es.
    replace (v * (2 ^ (n * q) * 2 ^ (j + 1)))
      with (v * 2 ^ (j + 1) + (v * c * 2 ^ (j + 1)) * (2 ^ n - 1)).
    2: { replace (2 ^ (n * q)) with (c * (2 ^ n - 1) + 1) by lia. ring. }
    rewrite Z.div_add by lia. rewrite E2.
    replace (v * c * (2 * 2 ^ j)) with (2 * (v * c * 2 ^ j)) by ring. now rewrite Z.odd_add_mul_2.
Qed.

Lemma unit_scale_self n v : 1 <= n -> 0 <= v < 2 ^ n -> unit_scale n n v = v.
Proof.
  intros Hn Hv. rewrite unit_scale_step by lia. rewrite Z.sub_diag, Z.sub_0_r, Z.div_small by lia.
  change (2 ^ 0) with 1. lia.
Qed.

Lemma scale_bits n m v i : 1 <= n -> 0 <= i < m -> 0 <= v < 2 ^ n ->
  top_bit m (unit_scale n m v) i = top_bit n v (i mod n).
Proof.
  intros Hn Hi Hv. unfold top_bit.
  assert (E : forall x k, 0 <= k -> Z.testbit x k = Z.odd (x / 2 ^ k)).
  { intros x k Hk. rewrite <- Z.bit0_odd, Z.div_pow2_bits by lia. f_equal. }
  pose proof (Z.mod_pos_bound i n ltac:(lia)) as Hj. pose proof (Z.div_mod i n ltac:(lia)) as Hd.
  assert (0 <= i / n) by (apply Z.div_pos; lia).
  rewrite E, scale_prefix by lia. rewrite E by lia.
  set (j := i mod n) in *. set (q := i / n) in *. replace (i + 1) with (n * q + j + 1) by lia.
  rewrite odd_scale_period by lia.
  destruct (Z.eq_dec (j + 1) n) as [Ej|].
  - rewrite Ej, unit_scale_self by lia. replace (n - 1 - j) with 0 by lia.
    now rewrite Z.pow_0_r, Z.div_1_r.
  - rewrite unit_scale_shrink by lia. do 3 f_equal. lia.
Qed.

Lemma shrink_expand n m v : 1 <= n <= m -> 0 <= v < 2 ^ n ->
  unit_scale m n (unit_scale n m v) = v.
Proof.
  intros Hn Hv. destruct (Z.eq_dec n m) as [<-|].
  - rewrite (unit_scale_self n v) by lia. apply unit_scale_self; lia.
  - rewrite unit_scale_shrink.
    + rewrite <- (unit_scale_self n v) at 2 by lia.
      replace (m - n) with (m - 1 - (n - 1)) by lia. rewrite scale_prefix by lia. f_equal. lia.
    + lia.
    + apply unit_scale_range; lia.
Qed.

(* ---- int_to_int_a ---- *)

Lemma nearest_down_unique a b c q q' : 0 < b -> nearest_down a b c q -> nearest_down a b c q' -> q = q'.
Proof. unfold nearest_down. intros. nia. Qed.

Lemma int_to_int_a_spec W I J v max_1 max_2 :
  ity_ok W -> isigned W = false -> ity_ok I -> ity_ok J ->
  in_range I max_1 -> in_range J max_2 -> 0 < max_1 -> 0 <= max_2 -> 0 <= v <= max_1 ->
  max_1 < 2 ^ iwidth W -> max_1 * max_2 < 2 ^ iwidth W ->
  exists q, int_to_int_a W I J v max_1 max_2 = Some q /\ nearest_down v max_1 max_2 q /\ 0 <= q <= max_2.
Proof.
  intros HW SW HI HJ R1 R2 P1 P2 Hv B1 B2. pose proof (ity_ok_width _ HW) as HW1.
  assert (Hn : nvb W = iwidth W) by (unfold nvb; now rewrite SW).
  assert (Hv2 : 0 <= v * max_2 < 2 ^ iwidth W) by nia.
  assert (Hm2 : 0 <= max_2 < 2 ^ iwidth W) by nia.
  unfold int_to_int_a, int_cast_a.
  rewrite (wrap_small W v), (wrap_small W max_2) by (assumption || rewrite Hn; lia).
  assert (Em : cmul (W, v) (W, max_2) = Some (promo W, v * max_2)).
  { unfold cmul, cbin. cbn [fst snd]. pose proof (promo_width W HW) as [K1 K2].
    pose proof (nvb_promo W HW) as [K3 K4]. rewrite Hn in K3.
    assert (2 ^ iwidth W <= 2 ^ nvb (promo W)) by (apply Z.pow_le_mono_r; lia).
    replace (uac W W) with (promo W).
    2: { unfold uac. now rewrite eqb_reflx, Z.leb_refl. }
    pose proof (promo_ok' W HW).
    rewrite (wrap_small (promo W) v), (wrap_small (promo W) max_2) by (assumption || lia).
    apply norm_small; [assumption|lia]. }
  rewrite Em. cbn [obind snd]. rewrite wrap_small by (assumption || rewrite Hn; lia).
  destruct (int_div_round_half_down_spec W I (v * max_2) max_1 HW HI) as [q [Eq Hq]]; try assumption; try lia.
  { apply small_range; [assumption|]. rewrite Hn. lia. }
  rewrite Eq. cbn [obind].
  assert (Hq2 : 0 <= q <= max_2) by nia.
  exists q. split; [|split; [exact Hq|exact Hq2]].
  f_equal. apply wrap_small; [assumption|]. pose proof (range_small _ _ R2). lia.
Qed.
