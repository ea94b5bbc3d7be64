From Coq Require Import ZArith Lia Bool ZifyBool.
From Verif Require Import CInt IntModel IntProofs IntProofs4 SuperIntModel SuperIntSpec.
Open Scope Z_scope.

Lemma pow_S N : 0 <= N -> 2 ^ (N + 1) = 2 * 2 ^ N.
Proof. intros. rewrite Z.pow_add_r by lia. lia. Qed.

Lemma u_small N x : 0 <= x < 2 ^ N -> u N x = x.
Proof. apply Z.mod_small. Qed.

Lemma u_range N x : 0 <= N -> 0 <= u N x < 2 ^ N.
Proof. intros. apply Z.mod_pos_bound. apply Z.pow_pos_nonneg; lia. Qed.

Lemma u_eq N x y k : 0 <= N -> x = y + k * 2 ^ N -> 0 <= y < 2 ^ N -> u N x = y.
Proof.
  intros HN -> Hy. unfold u. rewrite Z.mod_add by lia. now apply Z.mod_small.
Qed.

Lemma s_fits_value N a : 1 <= N -> s_valid N a -> s_fits N (s_value N a).
Proof.
  unfold s_valid, s_fits, s_value. intros HN H.
  destruct (ssign a); lia.
Qed.

Lemma s_reduces_fits N x r : 1 <= N -> s_fits N x -> s_reduces N x r -> r = x.
Proof.
  intros HN Hx [Hr [k Hk]]. unfold s_fits in *. rewrite pow_S in Hk by lia.
  assert (0 < 2 ^ N) by (apply Z.pow_pos_nonneg; lia).
  assert (k = 0) by nia. subst k. lia.
Qed.

Lemma s_add_spec N a b : 1 <= N -> s_valid N a -> s_valid N b ->
  s_valid N (s_add N a b) /\ s_reduces N (s_value N a + s_value N b) (s_value N (s_add N a b)).
Proof.
  intros HN Ha Hb. pose proof (pow_S N ltac:(lia)) as HP.
  unfold s_reduces, s_fits, s_valid, s_value, s_add in *. cbn [sval ssign].
  rewrite HP. set (M := 2 ^ N) in *.
  assert (0 < M) by (apply Z.pow_pos_nonneg; lia).
  destruct (Z_lt_le_dec (sval a + sval b) M).
  - rewrite (u_small N) by (fold M; lia).
    replace (sval a + sval b <? sval a) with false by lia.
    destruct (ssign a), (ssign b); cbn [xorb]; (split; [lia|split; [lia|]]).
    + exists 1. lia.
    + exists 0; lia. + exists 0; lia. + exists 0; lia.
  - rewrite (u_eq N _ (sval a + sval b - M) 1) by (fold M; lia).
    replace (sval a + sval b - M <? sval a) with true by lia.
    destruct (ssign a), (ssign b); cbn [xorb]; (split; [lia|split; [lia|]]).
    + exists 0; lia. + exists 0; lia. + exists 0; lia. + exists (-1); lia.
Qed.

Lemma s_sub_spec N a b : 1 <= N -> s_valid N a -> s_valid N b ->
  s_valid N (s_sub N a b) /\ s_reduces N (s_value N a - s_value N b) (s_value N (s_sub N a b)).
Proof.
  intros HN Ha Hb. pose proof (pow_S N ltac:(lia)) as HP.
  unfold s_reduces, s_fits, s_valid, s_value, s_sub in *. cbn [sval ssign].
  rewrite HP. set (M := 2 ^ N) in *.
  assert (0 < M) by (apply Z.pow_pos_nonneg; lia).
  destruct (Z_lt_le_dec (sval a - sval b) 0).
  - rewrite (u_eq N _ (sval a - sval b + M) (-1)) by (fold M; lia).
    replace (sval a - sval b + M >? sval a) with true by lia.
    destruct (ssign a), (ssign b); cbn [xorb]; (split; [lia|split; [lia|]]).
    + exists 0; lia. + exists 1; lia. + exists 0; lia. + exists 0; lia.
  - rewrite (u_small N) by (fold M; lia).
    replace (sval a - sval b >? sval a) with false by lia.
    destruct (ssign a), (ssign b); cbn [xorb]; (split; [lia|split; [lia|]]).
    + exists 0. lia. + exists 0; lia. + exists (-1); lia. + exists 0; lia.
Qed.

Lemma s_neg_spec N a : 1 <= N -> s_valid N a ->
  s_valid N (s_neg N a) /\ s_reduces N (- s_value N a) (s_value N (s_neg N a)).
Proof.
  intros HN Ha. assert (H0 : s_valid N (SInt 0 false)).
  { unfold s_valid; cbn. split; [lia|apply Z.pow_pos_nonneg; lia]. }
  apply (s_sub_spec N (SInt 0 false) a HN H0 Ha).
Qed.

Lemma s_not_spec N a : 1 <= N -> s_valid N a ->
  s_valid N (s_not N a) /\ s_value N (s_not N a) = Z.lnot (s_value N a).
Proof.
  intros HN Ha. unfold s_valid, s_value, s_not, unot, umax, Z.lnot in *. cbn [sval ssign].
  destruct (ssign a); cbn [negb]; lia.
Qed.

Lemma shr1 x : Z.shiftr x 1 = x / 2.
Proof. now rewrite Z.shiftr_div_pow2. Qed.
Lemma land1 x : Z.land x 1 = x mod 2.
Proof. change 1 with (Z.ones 1). now rewrite Z.land_ones. Qed.

(* the halved (N+1)-bit pattern *)
Lemma half_pattern N a : 1 <= N -> s_valid N a ->
  Z.lor (u N (Z.shiftl (Z.b2z (ssign a)) (N - 1))) (Z.shiftr (sval a) 1) =
  (if ssign a then 2 ^ (N - 1) else 0) + sval a / 2.
Proof.
  intros HN Ha. unfold s_valid in Ha. rewrite shr1.
  pose proof (pow2_double N HN).
  assert (0 < 2 ^ (N - 1)) by (apply Z.pow_pos_nonneg; lia).
  assert (0 <= sval a / 2 < 2 ^ (N - 1)).
  { pose proof (Z.div_mod (sval a) 2). pose proof (Z.mod_pos_bound (sval a) 2). lia. }
  rewrite Z.shiftl_mul_pow2 by lia. destruct (ssign a); cbn [Z.b2z].
  - rewrite u_small by lia. rewrite lor_disjoint_add by lia. lia.
  - rewrite Z.mul_0_l, u_small by lia. now rewrite Z.lor_0_l.
Qed.

Lemma mod_idemp_u N x : 0 <= N -> exists k, u N x = x + k * 2 ^ N.
Proof.
  intros. exists (- (x / 2 ^ N)). unfold u. assert (0 < 2 ^ N) by (apply Z.pow_pos_nonneg; lia).
  pose proof (Z.div_mod x (2 ^ N)). lia.
Qed.

Lemma s_mul_spec N a b : 1 <= N -> s_valid N a -> s_valid N b ->
  s_valid N (s_mul N a b) /\ s_reduces N (s_value N a * s_value N b) (s_value N (s_mul N a b)).
Proof.
  intros HN Ha Hb. unfold s_mul. rewrite !half_pattern by assumption.
  rewrite !land1.
  set (a1 := sval a mod 2). set (b1 := sval b mod 2).
  set (a2 := (if ssign a then 2 ^ (N - 1) else 0) + sval a / 2).
  set (b2 := (if ssign b then 2 ^ (N - 1) else 0) + sval b / 2).
  set (v := u N (u N (u N (Z.shiftl (u N (a2 * b2)) 1) + u N (a2 * b1)) + u N (a1 * b2))).
  pose proof (pow2_double N HN) as HD. pose proof (pow_S N ltac:(lia)) as HP.
  assert (Hq : 0 < 2 ^ (N - 1)) by (apply Z.pow_pos_nonneg; lia).
  assert (Ha1 : a1 = 0 \/ a1 = 1) by (unfold a1; pose proof (Z.mod_pos_bound (sval a) 2); lia).
  assert (Hb1 : b1 = 0 \/ b1 = 1) by (unfold b1; pose proof (Z.mod_pos_bound (sval b) 2); lia).
  assert (Hav : exists k, s_value N a = 2 * a2 + a1 + k * 2 ^ (N + 1)).
  { exists (if ssign a then -1 else 0). unfold s_value, a2, a1.
    pose proof (Z.div_mod (sval a) 2). destruct (ssign a); lia. }
  assert (Hbv : exists k, s_value N b = 2 * b2 + b1 + k * 2 ^ (N + 1)).
  { exists (if ssign b then -1 else 0). unfold s_value, b2, b1.
    pose proof (Z.div_mod (sval b) 2). destruct (ssign b); lia. }
  assert (Hv : exists k, v = 2 * a2 * b2 + a2 * b1 + a1 * b2 + k * 2 ^ N).
  { unfold v. rewrite Z.shiftl_mul_pow2 by lia. change (2 ^ 1) with 2.
    destruct (mod_idemp_u N (a2 * b2) ltac:(lia)) as [k1 ->].
    destruct (mod_idemp_u N ((a2 * b2 + k1 * 2 ^ N) * 2) ltac:(lia)) as [k2 ->].
    destruct (mod_idemp_u N (a2 * b1) ltac:(lia)) as [k3 ->].
    destruct (mod_idemp_u N (a1 * b2) ltac:(lia)) as [k4 ->].
    set (e1 := (a2 * b2 + k1 * 2 ^ N) * 2 + k2 * 2 ^ N + (a2 * b1 + k3 * 2 ^ N)).
    destruct (mod_idemp_u N e1 ltac:(lia)) as [k5 ->].
    destruct (mod_idemp_u N (e1 + k5 * 2 ^ N + (a1 * b2 + k4 * 2 ^ N)) ltac:(lia)) as [k6 ->].
    unfold e1. exists (2 * k1 + k2 + k3 + k5 + k4 + k6). ring. }
  assert (Hvr : 0 <= v < 2 ^ N) by (apply u_range; lia).
  assert (H11 : 0 <= a1 * b1 <= 1) by (destruct Ha1 as [-> | ->], Hb1 as [-> | ->]; lia).
  rewrite (u_small N (a1 * b1)) by lia.
  (* low part *)
  rewrite Z.shiftl_mul_pow2 by lia. change (2 ^ 1) with 2.
  rewrite Z.shiftr_div_pow2 by lia.
  assert (Hlow : Z.lor (u N (v * 2)) (a1 * b1) =
                 2 * v + a1 * b1 - (if v <? 2 ^ (N - 1) then 0 else 2 ^ N)).
  { destruct (Z.ltb_spec v (2 ^ (N - 1))).
    - rewrite (u_small N) by lia. change (v * 2) with (v * 2 ^ 1).
      rewrite lor_disjoint_add by lia. change (2 ^ 1) with 2. lia.
    - rewrite (u_eq N _ ((v - 2 ^ (N - 1)) * 2) 1) by lia.
      change ((v - 2 ^ (N - 1)) * 2) with ((v - 2 ^ (N - 1)) * 2 ^ 1).
      rewrite lor_disjoint_add by lia. change (2 ^ 1) with 2. lia. }
  rewrite Hlow.
  assert (Hs : negb (v / 2 ^ (N - 1) =? 0) = negb (v <? 2 ^ (N - 1))).
  { destruct (Z.ltb_spec v (2 ^ (N - 1))).
    - rewrite Z.div_small by lia. reflexivity.
    - assert (1 <= v / 2 ^ (N - 1)) by (apply Z.div_le_lower_bound; lia).
      replace (v / 2 ^ (N - 1) =? 0) with false by lia. reflexivity. }
  rewrite Hs.
  destruct Hav as [ka Hav], Hbv as [kb Hbv], Hv as [kv Hv].
  unfold s_valid, s_reduces, s_fits. cbn [sval].
  assert (Hval : s_value N {| sval := 2 * v + a1 * b1 - (if v <? 2 ^ (N - 1) then 0 else 2 ^ N);
                              ssign := negb (v <? 2 ^ (N - 1)) |}
                 = 2 * v + a1 * b1 - (if v <? 2 ^ (N - 1) then 0 else 2 ^ (N + 1))).
  { unfold s_value. cbn [sval ssign]. destruct (v <? 2 ^ (N - 1)); cbn [negb]; lia. }
  rewrite Hval. split; [|split].
  - destruct (Z.ltb_spec v (2 ^ (N - 1))); lia.
  - destruct (Z.ltb_spec v (2 ^ (N - 1))); lia.
  - set (c := if v <? 2 ^ (N - 1) then 0 else 1).
    replace (if v <? 2 ^ (N - 1) then 0 else 2 ^ (N + 1)) with (c * 2 ^ (N + 1))
      by (unfold c; destruct (v <? 2 ^ (N - 1)); lia).
    exists (kv - c - ka * (2 * b2 + b1) - kb * (2 * a2 + a1) - ka * kb * 2 ^ (N + 1)).
    rewrite Hav, Hbv. clearbody c v a2 b2 a1 b1. rewrite Hv, HP.
    generalize (2 ^ N). intros M. ring.
Qed.

(* ---- bitwise ---- *)
Lemma value_testbit N a i : 1 <= N -> s_valid N a -> 0 <= i ->
  Z.testbit (s_value N a) i = if i <? N then Z.testbit (sval a) i else ssign a.
Proof.
  intros HN Ha Hi. unfold s_valid, s_value in *.
  assert (Hhigh : N <= i -> Z.testbit (sval a) i = false).
  { intros. destruct (Z.eq_dec (sval a) 0) as [->|]; [apply Z.testbit_0_l|].
    apply Z.bits_above_log2; [lia|]. apply Z.log2_lt_pow2; [lia|].
    eapply Z.lt_le_trans; [apply Ha|]. apply Z.pow_le_mono_r; lia. }
  destruct (ssign a).
  - replace (sval a - 2 ^ N) with (-1 * 2 ^ N + sval a) by lia.
    rewrite <- lor_disjoint_add by lia. rewrite Z.lor_spec.
    rewrite <- Z.shiftl_mul_pow2 by lia. rewrite Z.shiftl_spec by lia.
    destruct (Z.ltb_spec i N).
    + rewrite Z.testbit_neg_r by lia. reflexivity.
    + rewrite Z.bits_m1 by lia. reflexivity.
  - destruct (Z.ltb_spec i N); [reflexivity|auto].
Qed.

Lemma testbit_high N x i : 0 <= N -> 0 <= x < 2 ^ N -> N <= i -> Z.testbit x i = false.
Proof.
  intros HN Hx Hi. destruct (Z.eq_dec x 0) as [->|]; [apply Z.testbit_0_l|].
  apply Z.bits_above_log2; [lia|]. apply Z.log2_lt_pow2; [lia|].
  eapply Z.lt_le_trans; [apply Hx|]. apply Z.pow_le_mono_r; lia.
Qed.

Lemma bits_lt N x : 0 <= N -> 0 <= x -> (forall i, N <= i -> Z.testbit x i = false) -> x < 2 ^ N.
Proof.
  intros HN Hx H. destruct (Z.eq_dec x 0) as [->|]; [apply Z.pow_pos_nonneg; lia|].
  apply Z.log2_lt_pow2; [lia|]. destruct (Z_lt_le_dec (Z.log2 x) N); [assumption|].
  specialize (H (Z.log2 x) ltac:(assumption)). rewrite Z.bit_log2 in H by lia. discriminate.
Qed.

Lemma s_bitop_spec N a b (f : Z -> Z -> Z) (g : bool -> bool -> bool) : 1 <= N ->
  (forall x y i, Z.testbit (f x y) i = g (Z.testbit x i) (Z.testbit y i)) ->
  (forall x y, 0 <= x -> 0 <= y -> 0 <= f x y) -> g false false = false ->
  s_valid N a -> s_valid N b ->
  let r := SInt (f (sval a) (sval b)) (g (ssign a) (ssign b)) in
  s_valid N r /\ s_value N r = f (s_value N a) (s_value N b).
Proof.
  intros HN Hf Hpos Hg Ha Hb r.
  assert (Hr : s_valid N r).
  { unfold s_valid in *. cbn [r sval]. split; [apply Hpos; lia|].
    apply bits_lt; [lia|apply Hpos; lia|]. intros i Hi.
    rewrite Hf, !(testbit_high N) by lia. assumption. }
  split; [assumption|]. apply Z.bits_inj'. intros i Hi.
  rewrite value_testbit, Hf, !value_testbit by assumption.
  cbn [r sval ssign]. rewrite Hf. destruct (i <? N); reflexivity.
Qed.

Lemma s_lt_spec N a b : 1 <= N -> s_valid N a -> s_valid N b ->
  s_lt a b = (s_value N a <? s_value N b).
Proof.
  intros HN Ha Hb. unfold s_valid, s_value, s_lt in *.
  destruct (ssign a), (ssign b); cbn [andb negb eqb]; lia.
Qed.

Lemma s_eq_spec N a b : 1 <= N -> s_valid N a -> s_valid N b ->
  s_eq a b = (s_value N a =? s_value N b).
Proof.
  intros HN Ha Hb. unfold s_valid, s_value, s_eq in *.
  destruct (ssign a), (ssign b); cbn [andb negb eqb]; lia.
Qed.

(* ---- conversion ---- *)
Lemma s_of_spec N T v : 1 <= N -> ity_ok T -> nvb T <= N -> in_range T v ->
  s_valid N (s_of N T v) /\ s_value N (s_of N T v) = v.
Proof.
  intros HN HT Hw Hv. unfold s_of, s_valid, s_value. cbn [sval ssign].
  split; [apply u_range; lia|].
  assert (HP : 2 ^ nvb T <= 2 ^ N) by (apply Z.pow_le_mono_r; lia).
  rewrite in_range_nvb in Hv.
  destruct (isigned T).
  - destruct (Z.ltb_spec v 0).
    + rewrite (u_eq N _ (v + 2 ^ N) (-1)) by lia. lia.
    + rewrite u_small by lia. reflexivity.
  - rewrite u_small by lia. reflexivity.
Qed.

Lemma s_get_as_spec N T a old : 1 <= N -> ity_ok T -> nvb T <= N -> s_valid N a ->
  s_get_as N T a old =
    if in_rangeb T (s_value N a) then Some (true, s_value N a) else Some (false, old).
Proof.
  intros HN HT Hw Ha. unfold s_get_as, s_cast_has_overflow, s_gt.
  destruct (s_of_spec N T (imin T) HN HT Hw (imin_range T HT)) as [V1 E1].
  destruct (s_of_spec N T (imax T) HN HT Hw (imax_range T HT)) as [V2 E2].
  rewrite !(s_lt_spec N) by assumption. rewrite E1, E2.
  destruct (in_rangeb T (s_value N a)) eqn:E.
  - apply in_rangeb_spec in E.
    replace ((s_value N a <? imin T) || (imax T <? s_value N a)) with false
      by (unfold in_range in E; lia).
    unfold s_valid, s_value in *. destruct (ssign a) eqn:S.
    + assert (ST : isigned T = true).
      { destruct (isigned T) eqn:ST; [reflexivity|]. apply in_range_unsigned_nonneg in E; auto. lia. }
      assert (HPS : isigned (promo T) = true).
      { unfold promo. destruct (_ <? _); [reflexivity|assumption]. }
      pose proof (promo_ok T HT) as HP.
      unfold unot, umax.
      assert (Hc : in_range (promo T) (2 ^ N - 1 - sval a)).
      { apply in_range_promo; [assumption|]. rewrite in_range_nvb in *. rewrite ST in *. lia. }
      rewrite wrap_id by assumption.
      unfold csub, cbin. cbn [fst snd].
      assert (HU : uac t_int (promo T) = promo T).
      { unfold uac. rewrite promo_idem. change (promo t_int) with t_int.
        cbn [isigned t_int]. rewrite HPS. cbn [Bool.eqb]. change (iwidth t_int) with 32.
        pose proof (promo_width T).
        destruct (Z.leb_spec (iwidth (promo T)) 32); [|reflexivity].
        unfold promo in *. destruct (Z.ltb_spec (iwidth T) 32); [reflexivity|].
        destruct T as [w s]. cbn in *. subst. unfold t_int. f_equal. lia. }
      rewrite HU.
      assert (Hm1 : in_range (promo T) (-1)).
      { rewrite in_range_nvb, HPS. pose proof (pow_nvb_pos (promo T) HP). lia. }
      rewrite !wrap_id by assumption.
      rewrite norm_in; [cbn [obind snd]; rewrite wrap_id|..]; auto.
      * f_equal. f_equal. lia.
      * now replace (-1 - (2 ^ N - 1 - sval a)) with (sval a - 2 ^ N) by lia.
      * replace (-1 - (2 ^ N - 1 - sval a)) with (sval a - 2 ^ N) by lia. now apply in_range_promo.
    + now rewrite wrap_id.
  - apply in_rangeb_false in E.
    replace ((s_value N a <? imin T) || (imax T <? s_value N a)) with true
      by (unfold in_range in E; lia). reflexivity.
Qed.

(* ---- overflow detection ---- *)
Lemma s_add_ov_spec N a b : 1 <= N -> s_valid N a -> s_valid N b ->
  s_ov_outcome N a (s_value N a + s_value N b) (s_add_ov N a b).
Proof.
  intros HN Ha Hb. pose proof (pow_S N ltac:(lia)) as HP.
  unfold s_ov_outcome, s_fits, s_add_ov, s_valid, s_value, s_add in *. cbn [sval ssign].
  set (M := 2 ^ N) in *.
  assert (0 < M) by (apply Z.pow_pos_nonneg; lia).
  destruct (Z_lt_le_dec (sval a + sval b) M).
  - rewrite (u_small N) by (fold M; lia).
    replace (sval a + sval b <? sval a) with false by lia.
    destruct (ssign a), (ssign b); cbn [xorb eqb andb fst snd sval ssign];
      solve [left; split; [lia|split; [reflexivity|lia]] | right; split; [lia|reflexivity]].
  - rewrite (u_eq N _ (sval a + sval b - M) 1) by (fold M; lia).
    replace (sval a + sval b - M <? sval a) with true by lia.
    destruct (ssign a), (ssign b); cbn [xorb eqb andb fst snd sval ssign];
      solve [left; split; [lia|split; [reflexivity|lia]] | right; split; [lia|reflexivity]].
Qed.

Lemma s_sub_ov_spec N a b : 1 <= N -> s_valid N a -> s_valid N b ->
  s_ov_outcome N a (s_value N a - s_value N b) (s_sub_ov N a b).
Proof.
  intros HN Ha Hb. pose proof (pow_S N ltac:(lia)) as HP.
  unfold s_ov_outcome, s_fits, s_sub_ov, s_valid, s_value, s_sub in *. cbn [sval ssign].
  set (M := 2 ^ N) in *.
  assert (0 < M) by (apply Z.pow_pos_nonneg; lia).
  destruct (Z_lt_le_dec (sval a - sval b) 0).
  - rewrite (u_eq N _ (sval a - sval b + M) (-1)) by (fold M; lia).
    replace (sval a - sval b + M >? sval a) with true by lia.
    destruct (ssign a), (ssign b); cbn [xorb eqb andb fst snd sval ssign];
      solve [left; split; [lia|split; [reflexivity|lia]] | right; split; [lia|reflexivity]].
  - rewrite (u_small N) by (fold M; lia).
    replace (sval a - sval b >? sval a) with false by lia.
    destruct (ssign a), (ssign b); cbn [xorb eqb andb fst snd sval ssign];
      solve [left; split; [lia|split; [reflexivity|lia]] | right; split; [lia|reflexivity]].
Qed.

Lemma le_div_iff a b c : 0 < b -> (a <= c / b <-> a * b <= c).
Proof. apply div_le_iff. Qed.

Lemma s_mul_ov_spec N a b : 1 <= N -> s_valid N a -> s_valid N b ->
  s_ov_outcome N a (s_value N a * s_value N b) (s_mul_ov N a b).
Proof.
  intros HN Ha Hb.
  destruct (s_mul_spec N a b HN Ha Hb) as [Hv Hr].
  assert (Hout : forall good : bool, (good = true <-> s_fits N (s_value N a * s_value N b)) ->
     s_ov_outcome N a (s_value N a * s_value N b) (if good then (false, s_mul N a b) else (true, a))).
  { intros [] Hg; unfold s_ov_outcome; cbn [fst snd].
    - left. assert (s_fits N (s_value N a * s_value N b)) by now apply Hg.
      split; [assumption|]. split; [reflexivity|]. split; [assumption|].
      now apply (s_reduces_fits N).
    - right. split; [|reflexivity]. intros H. apply Hg in H. discriminate. }
  unfold s_mul_ov. apply Hout. clear Hout Hv Hr.
  unfold s_fits, s_value, s_valid, unot, umax in *. set (M := 2 ^ N) in *.
  assert (HM : 2 <= M). { unfold M. pose proof (pow2_double N HN).
    assert (0 < 2 ^ (N - 1)) by (apply Z.pow_pos_nonneg; lia). lia. }
  set (x := sval a) in *. set (y := sval b) in *.
  assert (Hneg : forall p q, 0 <= p < M -> 0 <= q < M ->
     ((p =? 0) || (M - 1 - q <=? u N (M - 1 - u N (p - 1)) / p)) = true <-> - M <= p * (q - M) < M).
  { intros p q Hp Hq. destruct (Z.eqb_spec p 0) as [->|Hp0]; cbn [orb].
    - split; [lia|auto].
    - rewrite (u_small N (p - 1)) by (fold M; lia).
      rewrite (u_small N) by (fold M; lia).
      rewrite Z.leb_le, le_div_iff by lia. nia. }
  destruct (ssign a), (ssign b); cbn [negb].
  - rewrite (u_small N (M - 1 - 1)) by (fold M; lia).
    set (p := M - 1 - x). set (q := M - 1 - y).
    assert (Hp : 0 <= p < M) by lia. assert (Hq : 0 <= q < M) by lia.
    replace ((x - M) * (y - M)) with ((p + 1) * (q + 1)) by (unfold p, q; ring).
    destruct (Z.eqb_spec q 0) as [Hq0|Hq0]; cbn [negb].
    + rewrite Hq0. rewrite negb_true_iff, Z.eqb_neq. unfold p. split; intros; lia.
    + rewrite !andb_true_iff, !Z.leb_le.
      destruct (Z_le_gt_dec p (M - 1 - 1)) as [H1|H1].
      2:{ split; [lia|]. intros. exfalso. nia. }
      rewrite (u_small N (M - 1 - 1 - p)) by (fold M; lia).
      destruct (Z_le_gt_dec q (M - 1 - 1 - p)) as [H2|H2].
      2:{ split; [lia|]. intros. exfalso. nia. }
      rewrite (u_small N) by (fold M; lia).
      rewrite le_div_iff by lia. nia.
  - rewrite Z.mul_comm. now apply Hneg.
  - now apply Hneg.
  - destruct (Z.eqb_spec y 0) as [->|Hy]; cbn [orb].
    + rewrite Z.mul_0_r. split; [lia|auto].
    + rewrite Z.leb_le, le_div_iff by lia. nia.
Qed.

(* division *)
Lemma opp_u N x : 1 <= N -> 0 < x < 2 ^ N -> u N (unot N x + 1) = 2 ^ N - x.
Proof. intros HN Hx. unfold unot, umax. rewrite u_small by lia. lia. Qed.
Lemma opp_u0 N : 1 <= N -> u N (unot N 0 + 1) = 0.
Proof.
  intros HN. unfold unot, umax. assert (0 < 2 ^ N) by (apply Z.pow_pos_nonneg; lia).
  apply (u_eq N _ 0 1); lia.
Qed.

Lemma opp_signed N r : 1 <= N -> 0 <= r < 2 ^ N ->
  0 <= u N (unot N r + 1) < 2 ^ N /\
  (if r >? 0 then u N (unot N r + 1) - 2 ^ N else u N (unot N r + 1)) = - r.
Proof.
  intros HN Hr. split; [apply u_range; lia|].
  destruct (Z.gtb_spec r 0).
  - rewrite opp_u by lia. lia.
  - replace r with 0 by lia. rewrite opp_u0 by lia. reflexivity.
Qed.

(* the quotient 2^N / b obtained without forming 2^N *)
Lemma max_div N b : 1 <= N -> 0 < b < 2 ^ N ->
  let max := umax N in let r := max / b in
  (if u N (max - u N (r * b)) >=? u N (b - 1) then r + 1 else r) = 2 ^ N / b /\
  0 <= r <= max.
Proof.
  intros HN Hb max r. unfold umax in *.
  assert (Hr : 0 <= r) by (apply Z.div_pos; unfold max, umax; lia).
  pose proof (Z.div_mod max b ltac:(lia)) as HD. fold r in HD.
  pose proof (Z.mod_pos_bound max b ltac:(lia)) as HB.
  assert (Hrm : r <= max) by (unfold max, umax in *; nia).
  split; [|lia].
  assert (r * b <= max) by lia. unfold max, umax in *.
  rewrite (u_small N (r * b)) by nia.
  rewrite (u_small N (2 ^ N - 1 - r * b)) by nia. rewrite (u_small N (b - 1)) by lia.
  destruct (Z.geb_spec (2 ^ N - 1 - r * b) (b - 1)).
  - apply Z.div_unique with (r := 2 ^ N - (r + 1) * b); [left; nia|ring].
  - apply Z.div_unique with (r := 2 ^ N - r * b); [left; nia|ring].
Qed.

Lemma s_div_ov_spec N a b : 1 <= N -> s_valid N a -> s_valid N b -> s_value N b <> 0 ->
  exists res, s_div_ov N a b = Some res /\
    s_ov_outcome N a (Z.quot (s_value N a) (s_value N b)) res.
Proof.
  intros HN Ha Hb Hb0. unfold s_div_ov, s_ov_outcome, s_fits, s_valid, s_value in *.
  destruct a as [av sa], b as [bv sb]. cbn [sval ssign] in *.
  assert (HM : 2 <= 2 ^ N). { pose proof (pow2_double N HN).
    assert (0 < 2 ^ (N - 1)) by (apply Z.pow_pos_nonneg; lia). lia. }
  destruct sa, sb; cbn [negb].
  - (* neg / neg *)
    replace (Z.quot (av - 2 ^ N) (bv - 2 ^ N)) with ((2 ^ N - av) / (2 ^ N - bv)).
    2:{ rewrite <- (Z.quot_opp_opp (av - 2 ^ N)) by lia.
        replace (- (av - 2 ^ N)) with (2 ^ N - av) by lia.
        replace (- (bv - 2 ^ N)) with (2 ^ N - bv) by lia. symmetry. apply Z.quot_div_nonneg; lia. }
    assert (Hq0 : 0 <= (2 ^ N - av) / (2 ^ N - bv)) by (apply Z.div_pos; lia).
    destruct (Z.gtb_spec av 0).
    + destruct (Z.gtb_spec bv 0).
      * rewrite (opp_u N av), (opp_u N bv) by lia. replace (2 ^ N - bv =? 0) with false by lia.
        eexists. split; [reflexivity|]. left. cbn [fst snd sval ssign].
        assert ((2 ^ N - av) / (2 ^ N - bv) < 2 ^ N) by (apply Z.div_lt_upper_bound; nia).
        split; [lia|]. split; [reflexivity|]. lia.
      * assert (bv = 0) by lia. subst bv. eexists. split; [reflexivity|]. left.
        cbn [fst snd sval ssign]. rewrite Z.div_small by lia. split; [lia|]. split; [reflexivity|]. lia.
    + assert (av = 0) by lia. subst av. destruct (Z.gtb_spec bv 0).
      * rewrite (opp_u N bv) by lia. replace (2 ^ N - bv =? 0) with false by lia. cbn [obind].
        destruct (max_div N (2 ^ N - bv) HN ltac:(lia)) as [E Hr].
        set (r := umax N / (2 ^ N - bv)) in *. rewrite Z.sub_0_r in *.
        destruct (_ >=? _) eqn:G.
        -- destruct (Z.eqb_spec r (umax N)) as [Em|Em].
           ++ eexists. split; [reflexivity|]. right. split; [|reflexivity].
              rewrite <- E, Em. unfold umax. lia.
           ++ unfold umax in *. rewrite (u_small N (r + 1)) by lia.
              eexists. split; [reflexivity|]. left. cbn [fst snd sval ssign].
              rewrite <- E. split; [lia|]. split; [reflexivity|]. lia.
        -- eexists. split; [reflexivity|]. left. cbn [fst snd sval ssign].
           unfold umax in *. rewrite <- E. split; [lia|]. split; [reflexivity|]. lia.
      * assert (bv = 0) by lia. subst bv. eexists. split; [reflexivity|]. left.
        cbn [fst snd sval ssign]. rewrite Z.sub_0_r, Z.div_same by lia. split; [lia|]. split; [reflexivity|]. lia.
  - (* neg / nonneg *)
    assert (0 < bv) by lia.
    replace (Z.quot (av - 2 ^ N) bv) with (- ((2 ^ N - av) / bv)).
    2:{ rewrite <- Z.quot_div_nonneg by lia. rewrite <- Z.quot_opp_l by lia. f_equal. lia. }
    assert (Hq0 : 0 <= (2 ^ N - av) / bv) by (apply Z.div_pos; lia).
    destruct (Z.gtb_spec av 0).
    + rewrite (opp_u N av) by lia. replace (bv =? 0) with false by lia. cbn [obind].
      set (r := (2 ^ N - av) / bv) in *.
      assert (r < 2 ^ N) by (apply Z.div_lt_upper_bound; nia).
      destruct (opp_signed N r HN ltac:(lia)) as [G1 G2].
      eexists. split; [reflexivity|]. left. cbn [fst snd sval ssign]. rewrite G2.
      split; [lia|]. split; [reflexivity|]. split; [assumption|reflexivity].
    + assert (av = 0) by lia. subst av. rewrite Z.sub_0_r in *.
      replace (bv =? 0) with false by lia. cbn [obind].
      destruct (max_div N bv HN ltac:(lia)) as [E Hr].
      set (r := umax N / bv) in *.
      destruct (_ >=? _) eqn:G.
      * destruct (Z.eqb_spec r (umax N)) as [Em|Em].
        -- eexists. split; [reflexivity|]. left. cbn [fst snd sval ssign]. rewrite <- E, Em. unfold umax.
           split; [lia|]. split; [reflexivity|]. lia.
        -- unfold umax in *. rewrite (u_small N (r + 1)) by lia.
           destruct (opp_signed N (r + 1) HN ltac:(lia)) as [G1 G2].
           eexists. split; [reflexivity|]. left. cbn [fst snd sval ssign]. rewrite G2, <- E.
           split; [lia|]. split; [reflexivity|]. split; [assumption|reflexivity].
      * unfold umax in *. destruct (opp_signed N r HN ltac:(lia)) as [G1 G2].
        eexists. split; [reflexivity|]. left. cbn [fst snd sval ssign]. rewrite G2, <- E.
        split; [lia|]. split; [reflexivity|]. split; [assumption|reflexivity].
  - (* nonneg / neg *)
    replace (Z.quot av (bv - 2 ^ N)) with (- (av / (2 ^ N - bv))).
    2:{ rewrite <- Z.quot_div_nonneg by lia. rewrite <- Z.quot_opp_r by lia. f_equal. lia. }
    destruct (Z.gtb_spec bv 0).
    + rewrite (opp_u N bv) by lia. replace (2 ^ N - bv =? 0) with false by lia. cbn [obind].
      set (r := av / (2 ^ N - bv)) in *.
      assert (0 <= r) by (apply Z.div_pos; lia).
      assert (r < 2 ^ N) by (apply Z.div_lt_upper_bound; nia).
      destruct (opp_signed N r HN ltac:(lia)) as [G1 G2].
      eexists. split; [reflexivity|]. left. cbn [fst snd sval ssign]. rewrite G2.
      split; [lia|]. split; [reflexivity|]. split; [assumption|reflexivity].
    + assert (bv = 0) by lia. subst bv. rewrite Z.sub_0_r, Z.div_small by lia.
      eexists. split; [reflexivity|]. left. cbn [fst snd sval ssign].
      split; [lia|]. split; [reflexivity|]. lia.
  - replace (bv =? 0) with false by lia. cbn [obind].
    rewrite Z.quot_div_nonneg by lia.
    assert (0 <= av / bv) by (apply Z.div_pos; lia).
    assert (av / bv < 2 ^ N) by (apply Z.div_lt_upper_bound; nia).
    eexists. split; [reflexivity|]. left. cbn [fst snd sval ssign].
    split; [lia|]. split; [reflexivity|]. lia.
Qed.

Lemma quot_not_fits N x y : 1 <= N -> s_fits N x -> s_fits N y -> y <> 0 ->
  ~ s_fits N (Z.quot x y) -> x = - 2 ^ N /\ y = -1.
Proof.
  unfold s_fits. intros HN Hx Hy H0 Hq.
  assert (0 < 2 ^ N) by (apply Z.pow_pos_nonneg; lia).
  pose proof (Z.quot_rem' x y) as E. pose proof (Z.rem_bound_abs x y H0).
  destruct (Z.eq_dec y (-1)) as [->|].
  - change (-1) with (- (1)) in Hq. rewrite Z.quot_opp_r, Z.quot_1_r in Hq by lia. lia.
  - exfalso. apply Hq.
    destruct (Z.eq_dec y 1) as [->|]; [rewrite Z.quot_1_r; lia|].
    assert (Z.abs (Z.quot x y) * 2 <= Z.abs x).
    { rewrite <- Z.quot_abs by assumption. 
      assert (2 <= Z.abs y) by lia.
      rewrite Z.quot_div_nonneg by lia.
      pose proof (Z.mul_div_le (Z.abs x) (Z.abs y)).
      assert (0 <= Z.abs x / Z.abs y) by (apply Z.div_pos; lia). nia. }
    lia.
Qed.

Lemma s_m1 N : 1 <= N -> s_valid N (s_of N t_int (-1)) /\ s_value N (s_of N t_int (-1)) = -1.
Proof.
  intros HN. unfold s_valid, s_value, s_of. cbn [sval ssign].
  assert (1 < 2 ^ N) by (apply Z.pow_gt_1; lia).
  replace (-1 <? 0) with true by lia. cbn [isigned t_int].
  rewrite (u_eq N _ (2 ^ N - 1) (-1)) by lia. lia.
Qed.

Lemma s_min_val N : 1 <= N -> s_valid N s_min /\ s_value N s_min = - 2 ^ N.
Proof.
  intros HN. unfold s_valid, s_value, s_min. cbn.
  assert (1 < 2 ^ N) by (apply Z.pow_gt_1; lia). lia.
Qed.

Lemma s_div_spec N a b : 1 <= N -> s_valid N a -> s_valid N b -> s_value N b <> 0 ->
  exists r, s_div N a b = Some r /\ s_valid N r /\
    s_reduces N (Z.quot (s_value N a) (s_value N b)) (s_value N r).
Proof.
  intros HN Ha Hb Hb0. unfold s_div.
  destruct (s_div_ov_spec N a b HN Ha Hb Hb0) as (res & -> & [(Hf & E & Hv & Eq)|(Hf & ->)]); cbn [obind].
  - rewrite E. cbn [negb]. eexists. split; [reflexivity|]. split; [assumption|].
    rewrite Eq. split; [assumption|]. exists 0. lia.
  - cbn [fst snd negb].
    destruct (quot_not_fits N _ _ HN (s_fits_value N a HN Ha) (s_fits_value N b HN Hb) Hb0 Hf) as [E1 E2].
    destruct (s_m1 N HN) as [V1 W1]. destruct (s_min_val N HN) as [V2 W2].
    rewrite !(s_eq_spec N), W1, W2, E1, E2 by assumption.
    rewrite !Z.eqb_refl. cbn [andb]. eexists. split; [reflexivity|]. split; [assumption|].
    rewrite W2. assert (1 < 2 ^ N) by (apply Z.pow_gt_1; lia).
    change (-1) with (- (1)). rewrite Z.quot_opp_r, Z.quot_1_r by lia.
    split; [unfold s_fits; lia|]. exists (-1). rewrite pow_S by lia. lia.
Qed.

Lemma s_mod_spec N a b : 1 <= N -> s_valid N a -> s_valid N b -> s_value N b <> 0 ->
  exists r, s_mod N a b = Some r /\ s_valid N r /\
    s_value N r = Z.rem (s_value N a) (s_value N b).
Proof.
  intros HN Ha Hb Hb0. unfold s_mod.
  destruct (s_div_ov_spec N a b HN Ha Hb Hb0) as (res & -> & [(Hf & E & Hv & Eq)|(Hf & ->)]); cbn [obind].
  - rewrite E. cbn [negb]. eexists. split; [reflexivity|].
    destruct (s_mul_spec N (snd res) b HN Hv Hb) as [Hv2 [_ [k1 Hk1]]].
    destruct (s_sub_spec N a (s_mul N (snd res) b) HN Ha Hv2) as [Hv3 [Hf3 [k2 Hk2]]].
    split; [assumption|].
    set (y := s_value N b) in *. set (x := s_value N a) in *.
    assert (Hx : s_fits N x) by now apply s_fits_value.
    apply (s_reduces_fits N); [assumption| |].
    + unfold s_fits in *. pose proof (Z.rem_bound_abs x y Hb0).
      assert (Hy : s_fits N y) by (now apply s_fits_value). unfold s_fits in Hy.
      pose proof (Z.quot_rem' x y).
      assert (Z.abs (Z.rem x y) < 2 ^ N); [|lia]. lia.
    + split; [assumption|]. exists (k2 - k1). rewrite Hk2, Hk1, Eq.
      pose proof (Z.quot_rem' x y). replace (Z.rem x y) with (x - y * Z.quot x y) by lia. ring.
  - cbn [fst snd negb].
    destruct (quot_not_fits N _ _ HN (s_fits_value N a HN Ha) (s_fits_value N b HN Hb) Hb0 Hf) as [E1 E2].
    destruct (s_m1 N HN) as [V1 W1]. destruct (s_min_val N HN) as [V2 W2].
    rewrite !(s_eq_spec N), W1, W2, E1, E2 by assumption.
    rewrite !Z.eqb_refl. cbn [andb]. eexists. split; [reflexivity|].
    assert (1 < 2 ^ N) by (apply Z.pow_gt_1; lia).
    split; [unfold s_valid; cbn; lia|]. unfold s_value at 1. cbn [ssign sval].
    change (-1) with (- (1)). rewrite Z.rem_opp_r, Z.rem_1_r by lia. reflexivity.
Qed.

(* ---- shifts ---- *)
Lemma s_shl_spec N a n : 1 <= N -> s_valid N a -> 0 <= n < N ->
  exists r, s_shl N a n = Some r /\ s_valid N r /\
    s_reduces N (s_value N a * 2 ^ n) (s_value N r).
Proof.
  intros HN Ha Hn. unfold s_shl. destruct (Z.ltb_spec 0 n).
  2:{ exists a. replace n with 0 by lia. split; [reflexivity|]. split; [assumption|].
      split; [now apply s_fits_value|]. exists 0. lia. }
  replace (n <? N) with true by lia. replace (0 <=? N - n) with true by lia. cbn [andb].
  eexists. split; [reflexivity|]. split; [apply u_range; lia|].
  rewrite Z.shiftl_mul_pow2, Z.shiftr_div_pow2 by lia. rewrite land1.
  unfold s_reduces, s_fits, s_value, s_valid in *. cbn [sval ssign].
  set (v := sval a) in *. set (h := v / 2 ^ (N - n)). set (l := v mod 2 ^ (N - n)).
  assert (Hp1 : 0 < 2 ^ (N - n)) by (apply Z.pow_pos_nonneg; lia).
  assert (Hp2 : 0 < 2 ^ n) by (apply Z.pow_pos_nonneg; lia).
  assert (HPN : 2 ^ N = 2 ^ n * 2 ^ (N - n)) by (rewrite <- Z.pow_add_r by lia; f_equal; lia).
  assert (Hv : v = h * 2 ^ (N - n) + l) by (pose proof (Z.div_mod v (2 ^ (N - n))); unfold h, l; lia).
  assert (Hl : 0 <= l < 2 ^ (N - n)) by (apply Z.mod_pos_bound; lia).
  assert (E1 : u N (v * 2 ^ n) = l * 2 ^ n) by (apply (u_eq N _ _ h); [lia|rewrite HPN, Hv; ring|nia]).
  rewrite E1. rewrite pow_S by lia.
  assert (Hl2 : 0 <= l * 2 ^ n < 2 ^ N) by nia.
  pose proof (Z.div_mod h 2 ltac:(lia)). pose proof (Z.mod_pos_bound h 2 ltac:(lia)).
  assert (Hsg : exists k, (if ssign a then v - 2 ^ N else v) * 2 ^ n = v * 2 ^ n + k * (2 * 2 ^ N)).
  { pose proof (pow2_double n ltac:(lia)) as Hd. exists (if ssign a then - 2 ^ (n - 1) else 0).
    destruct (ssign a); [|lia]. rewrite Hd. ring. }
  destruct Hsg as [k Hk]. rewrite Hk.
  destruct (Z.eqb_spec (h mod 2) 0) as [E|E]; cbn [negb]; (split; [lia|]).
  - exists (- (h / 2) - k). rewrite Hv, HPN. replace h with (2 * (h / 2)) at 1 by lia. ring.
  - exists (- (h / 2) - 1 - k). rewrite Hv, HPN. replace h with (2 * (h / 2) + 1) at 1 by lia. ring.
Qed.

(* logical right shift of the (N+1)-bit pattern *)
Lemma s_shr_spec N a n : 1 <= N -> s_valid N a -> 0 < n < N ->
  exists r, s_shr N a n = Some r /\ s_valid N r /\
    s_value N r = (s_value N a mod 2 ^ (N + 1)) / 2 ^ n.
Proof.
  intros HN Ha Hn. unfold s_shr. replace (0 <? n) with true by lia. replace (n <? N) with true by lia.
  eexists. split; [reflexivity|]. unfold s_valid, s_value in *. cbn [sval ssign].
  rewrite Z.shiftl_mul_pow2, Z.shiftr_div_pow2 by lia. rewrite pow_S by lia.
  assert (Hp1 : 0 < 2 ^ (N - n)) by (apply Z.pow_pos_nonneg; lia).
  assert (Hp2 : 2 <= 2 ^ n). { pose proof (Z.pow_gt_1 2 n). lia. }
  assert (HPN : 2 ^ N = 2 ^ (N - n) * 2 ^ n) by (rewrite <- Z.pow_add_r by lia; f_equal; lia).
  set (v := sval a) in *.
  assert (Hq : 0 <= v / 2 ^ n < 2 ^ (N - n)).
  { split; [apply Z.div_pos; lia|]. apply Z.div_lt_upper_bound; lia. }
  rewrite Z.lor_comm. destruct (ssign a); cbn [Z.b2z].
  - rewrite (u_small N) by nia. rewrite lor_disjoint_add by lia.
    split; [nia|]. rewrite <- (Z.mod_add (v - 2 ^ N) 1) by lia.
    rewrite Z.mod_small by lia. replace (v - 2 ^ N + 1 * (2 * 2 ^ N)) with (v + 2 ^ (N - n) * 2 ^ n) by lia.
    rewrite Z.div_add by lia. lia.
  - rewrite Z.mul_0_l, (u_small N) by lia. rewrite Z.lor_0_l.
    split; [nia|]. rewrite Z.mod_small by lia. reflexivity.
Qed.
