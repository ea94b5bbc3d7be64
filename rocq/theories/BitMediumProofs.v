From Coq Require Import ZArith Lia Bool List ZifyBool.
From Verif Require Import CInt IntModel IntSpec IntProofs IntProofs2 IntProofs3 IntProofs4.
From Verif Require Import ArrLib IntBitCopyModel IntBitCopyProofs IntBitCopyProofs2.
From Verif Require Import BitMediumModel BitMediumSpec.
Open Scope Z_scope.

(* ---- arithmetic of the scaling ---- *)

Lemma pow2_pos' n : 0 <= n -> 0 < 2 ^ n.
Proof. intros. apply Z.pow_pos_nonneg; lia. Qed.

Lemma pow2_ge2 n : 1 <= n -> 2 <= 2 ^ n.
Proof. intros. change 2 with (2 ^ 1) at 1. apply Z.pow_le_mono_r; lia. Qed.

Lemma unit_scale_range n m v : 1 <= n -> 0 <= m -> 0 <= v < 2 ^ n ->
  0 <= unit_scale n m v < 2 ^ m.
Proof.
  intros Hn Hm Hv. unfold unit_scale. pose proof (pow2_pos' m Hm). pose proof (pow2_ge2 n Hn).
  destruct (Z.eqb_spec v (2 ^ n - 1)); [lia|].
  split; [apply Z.div_pos; nia|]. apply Z.div_lt_upper_bound; nia.
Qed.

Lemma unit_scale_shrink n m v : 0 <= m < n -> 0 <= v < 2 ^ n ->
  unit_scale n m v = v / 2 ^ (n - m).
Proof.
  intros Hm Hv. unfold unit_scale.
  pose proof (pow2_pos' m ltac:(lia)). pose proof (pow2_pos' (n - m) ltac:(lia)).
  assert (Hs : 2 ^ n = 2 ^ (n - m) * 2 ^ m).
  { rewrite <- Z.pow_add_r by lia. f_equal. lia. }
  destruct (Z.eqb_spec v (2 ^ n - 1)) as [->|Hne].
  - apply Z.div_unique with (2 ^ (n - m) - 1); nia.
  - pose proof (Z.div_mod v (2 ^ (n - m)) ltac:(lia)) as Hd.
    pose proof (Z.mod_pos_bound v (2 ^ (n - m)) ltac:(lia)) as Hr.
    set (q := v / 2 ^ (n - m)) in *. set (r := v mod 2 ^ (n - m)) in *.
    assert (0 <= q) by (apply Z.div_pos; lia).
    assert (q < 2 ^ m) by (apply Z.div_lt_upper_bound; lia).
    assert (Hrm : r * 2 ^ m <= 2 ^ n - 2 ^ m) by nia.
    assert (Hne2 : r * 2 ^ m + q < 2 ^ n - 1).
    { destruct (Z.eq_dec q (2 ^ m - 1)) as [Eq|]; [|lia].
      destruct (Z.eq_dec r (2 ^ (n - m) - 1)) as [Er|].
      - exfalso. apply Hne. rewrite Hd, Eq, Er. nia.
      - assert (r * 2 ^ m <= 2 ^ n - 2 * 2 ^ m) by nia. lia. }
    symmetry. apply Z.div_unique with (r * 2 ^ m + q); [left; nia|nia].
Qed.

Lemma unit_scale_step n m v : 1 <= n -> n <= m < 2 * n -> 0 <= v < 2 ^ n ->
  unit_scale n m v = v * 2 ^ (m - n) + v / 2 ^ (n - (m - n)).
Proof.
  intros Hn Hm Hv. rewrite <- unit_scale_shrink by lia. set (r := m - n).
  pose proof (pow2_ge2 n Hn). pose proof (pow2_pos' r ltac:(lia)).
  assert (Hs : 2 ^ m = 2 ^ r * 2 ^ n).
  { rewrite <- Z.pow_add_r by lia. f_equal. lia. }
  unfold unit_scale. destruct (Z.eqb_spec v (2 ^ n - 1)) as [->|Hne]; [nia|].
  replace (v * 2 ^ m) with (v * 2 ^ r + (v * 2 ^ r) * (2 ^ n - 1)) by nia.
  rewrite Z.div_add by lia. lia.
Qed.

Lemma unit_scale_equiv n v n2 v2 m : 1 <= n -> 1 <= n2 -> 0 <= v < 2 ^ n ->
  v2 * (2 ^ n - 1) = v * (2 ^ n2 - 1) -> unit_scale n2 m v2 = unit_scale n m v.
Proof.
  intros Hn Hn2 Hv E. unfold unit_scale.
  pose proof (pow2_ge2 n Hn). pose proof (pow2_ge2 n2 Hn2).
  destruct (Z.eqb_spec v (2 ^ n - 1)) as [->|Hne].
  - replace (v2 =? 2 ^ n2 - 1) with true; [reflexivity|]. symmetry. apply Z.eqb_eq. nia.
  - replace (v2 =? 2 ^ n2 - 1) with false by (symmetry; apply Z.eqb_neq; nia).
    assert (E2 : (v2 * 2 ^ m * (2 ^ n - 1)) / ((2 ^ n2 - 1) * (2 ^ n - 1)) = v2 * 2 ^ m / (2 ^ n2 - 1))
      by (apply Z.div_mul_cancel_r; lia).
    assert (E3 : (v * 2 ^ m * (2 ^ n2 - 1)) / ((2 ^ n - 1) * (2 ^ n2 - 1)) = v * 2 ^ m / (2 ^ n - 1))
      by (apply Z.div_mul_cancel_r; lia).
    rewrite <- E2, <- E3. f_equal; nia.
Qed.

Lemma lor_shift_add a b r : 0 <= r -> 0 <= b < 2 ^ r -> Z.lor (a * 2 ^ r) b = a * 2 ^ r + b.
Proof.
  intros Hr Hb. symmetry. rewrite <- Z.lxor_lor; [apply Z.add_nocarry_lxor|].
  all: apply Z.bits_inj'; intros k Hk; rewrite Z.land_spec, Z.testbit_0_l;
    destruct (Z.ltb_spec k r);
    [rewrite Z.mul_pow2_bits_low by lia; reflexivity
    |rewrite (testbit_small b r) by lia; apply andb_false_r].
Qed.

(* ---- typed operations on small values ---- *)

Lemma nvb_promo T : ity_ok T -> nvb T <= nvb (promo T) /\ 31 <= nvb (promo T).
Proof.
  intros H. pose proof (ity_ok_width _ H). unfold promo, nvb.
  destruct (Z.ltb_spec (iwidth T) 32); cbn; destruct (isigned T) eqn:E; try lia.
Qed.

Lemma promo_ok' T : ity_ok T -> ity_ok (promo T).
Proof.
  intros H. unfold promo. destruct (Z.ltb_spec (iwidth T) 32); [cbn; lia|assumption].
Qed.

Lemma small_range T x : ity_ok T -> 0 <= x < 2 ^ nvb T -> in_range T x.
Proof.
  intros H Hx. pose proof (ity_ok_width _ H). unfold in_range, imin, imax, nvb in *.
  destruct (isigned T); [|lia].
  assert (0 < 2 ^ (iwidth T - 1)) by (apply Z.pow_pos_nonneg; lia). lia.
Qed.

Lemma range_small T x : in_range T x -> x < 2 ^ nvb T.
Proof. unfold in_range, imin, imax, nvb. destruct (isigned T); lia. Qed.

Lemma wrap_small T x : ity_ok T -> 0 <= x < 2 ^ nvb T -> wrap T x = x.
Proof. intros. apply wrap_id; [assumption|now apply small_range]. Qed.

Lemma norm_small T x : ity_ok T -> 0 <= x < 2 ^ nvb T -> norm T x = Some (T, x).
Proof.
  intros H Hx. unfold norm. destruct (isigned T).
  - pose proof (small_range T x H Hx) as R. apply in_rangeb_spec in R. now rewrite R.
  - now rewrite wrap_small.
Qed.

Lemma uac_int_any P : 32 <= iwidth P -> uac P t_int = P.
Proof.
  intros H. unfold uac. rewrite promo_id by assumption. cbn. destruct (isigned P) eqn:E; cbn.
  - now replace (32 <=? iwidth P) with true by lia.
  - now replace (iwidth P <? 32) with false by lia.
Qed.

Section Ops.
  Variable P : ity.
  Hypothesis HP : ity_ok P.
  Hypothesis HW : 32 <= iwidth P.

  Lemma nvb_width : nvb P <= iwidth P.
  Proof. unfold nvb. destruct (isigned P); lia. Qed.

  Lemma cshl_small x r : 0 <= r < iwidth P -> 0 <= x * 2 ^ r < 2 ^ nvb P ->
    cshl (P, x) r = Some (P, x * 2 ^ r).
  Proof.
    intros Hr Hx. unfold cshl. cbn [fst snd]. rewrite promo_id by assumption.
    replace ((0 <=? r) && (r <? iwidth P)) with true by lia.
    rewrite Z.shiftl_mul_pow2 by lia. now rewrite wrap_small.
  Qed.

  Lemma cshr_small x r : 0 <= r < iwidth P -> cshr (P, x) r = Some (P, x / 2 ^ r).
  Proof.
    intros Hr. unfold cshr. cbn [fst snd]. rewrite promo_id by assumption.
    replace ((0 <=? r) && (r <? iwidth P)) with true by lia.
    now rewrite Z.shiftr_div_pow2 by lia.
  Qed.

  Lemma cor_small a b : 0 <= a < 2 ^ nvb P -> 0 <= b < 2 ^ nvb P ->
    cor (P, a) (P, b) = (P, Z.lor a b).
  Proof.
    intros Ha Hb. unfold cor. cbn [fst snd]. rewrite uac_same by assumption.
    rewrite (wrap_small P a), (wrap_small P b) by assumption. f_equal.
    apply wrap_small; [assumption|]. split; [apply Z.lor_nonneg; lia|].
    destruct (Z.eq_dec (Z.lor a b) 0) as [E|E].
    - rewrite E. apply Z.pow_pos_nonneg; [lia|]. pose proof (ity_ok_width _ HP). unfold nvb.
      destruct (isigned P); lia.
    - assert (Z.lor a b > 0) by (pose proof (proj2 (Z.lor_nonneg a b)); lia).
      apply Z.log2_lt_pow2; [lia|]. rewrite Z.log2_lor by lia.
      apply Z.max_lub_lt.
      + destruct (Z.eq_dec a 0) as [->|]; [cbn; unfold nvb; destruct (isigned P); lia|].
        apply Z.log2_lt_pow2; lia.
      + destruct (Z.eq_dec b 0) as [->|]; [cbn; unfold nvb; destruct (isigned P); lia|].
        apply Z.log2_lt_pow2; lia.
  Qed.

  Lemma cadd_int_small a b : 0 <= a < 2 ^ nvb P -> 0 <= b < 2 ^ nvb P -> 0 <= a + b < 2 ^ nvb P ->
    cadd (P, a) (t_int, b) = Some (P, a + b).
  Proof.
    intros. unfold cadd, cbin. cbn [fst snd]. rewrite uac_int_any by assumption.
    rewrite (wrap_small P a), (wrap_small P b) by assumption. now apply norm_small.
  Qed.

  Lemma cmul_small a b : 0 <= a < 2 ^ nvb P -> 0 <= b < 2 ^ nvb P -> 0 <= a * b < 2 ^ nvb P ->
    cmul (P, a) (P, b) = Some (P, a * b).
  Proof.
    intros. unfold cmul, cbin. cbn [fst snd]. rewrite uac_same by assumption.
    rewrite (wrap_small P a), (wrap_small P b) by assumption. now apply norm_small.
  Qed.
End Ops.

(* ---- change_bit_width ---- *)

Lemma expand_loop_spec T P m : ity_ok T -> P = promo T -> 1 <= m <= nvb T ->
  forall fuel n v, 1 <= n <= m -> 0 <= v < 2 ^ n -> (Z.to_nat (m - n) < fuel)%nat ->
  expand_loop fuel T P m v n = Some (unit_scale n m v).
Proof.
  intros HT HPe Hm. pose proof (promo_ok' T HT) as HP. rewrite <- HPe in HP.
  pose proof (nvb_promo T HT) as [Hn1 Hn2]. rewrite <- HPe in Hn1, Hn2.
  pose proof (promo_width T HT) as [Hw _]. rewrite <- HPe in Hw.
  pose proof (nvb_width P) as Hnw.
  assert (Hmp : 2 ^ m <= 2 ^ nvb P) by (apply Z.pow_le_mono_r; lia).
  assert (Hmt : 2 ^ m <= 2 ^ nvb T) by (apply Z.pow_le_mono_r; lia).
  induction fuel as [|fuel IH]; intros n v Hn Hv Hf; [lia|].
  cbn [expand_loop]. pose proof (pow2_ge2 n ltac:(lia)).
  destruct (Z.ltb_spec m (2 * n)).
  - pose proof (unit_scale_range n m v ltac:(lia) ltac:(lia) Hv) as Hr.
    rewrite unit_scale_step in Hr |- * by lia. set (r := m - n) in *.
    assert (0 <= v / 2 ^ (n - r)) by (apply Z.div_pos; [lia|apply Z.pow_pos_nonneg; lia]).
    destruct (Z.eqb_spec r 0) as [E|E]; cbn [negb].
    + rewrite E in *. change (2 ^ 0) with 1 in *. rewrite Z.sub_0_r in *.
      rewrite (Z.div_small v) in * by lia. unfold int_cast_a. rewrite wrap_small by (assumption || lia).
      f_equal. lia.
    + assert (Hq : v / 2 ^ (n - r) < 2 ^ r).
      { apply Z.div_lt_upper_bound; [apply Z.pow_pos_nonneg; lia|].
        rewrite <- Z.pow_add_r by lia. replace (n - r + r) with n by lia. lia. }
      assert (2 ^ r <= 2 ^ m) by (apply Z.pow_le_mono_r; lia).
      assert (0 < 2 ^ r) by (apply Z.pow_pos_nonneg; lia).
      assert (0 <= v * 2 ^ r) by nia.
      rewrite cshl_small by (assumption || lia). cbn [obind].
      rewrite cshr_small by (assumption || lia). cbn [obind].
      rewrite cor_small by (assumption || lia). cbn [snd].
      rewrite lor_shift_add by lia. unfold int_cast_a.
      rewrite wrap_small by (assumption || lia). reflexivity.
  - assert (Hd : 2 ^ (2 * n) = 2 ^ n * 2 ^ n) by (rewrite <- Z.pow_add_r by lia; f_equal; lia).
    assert (Hle : 2 ^ (2 * n) <= 2 ^ m) by (apply Z.pow_le_mono_r; lia).
    rewrite cshl_small by (assumption || nia). cbn [obind]. rewrite Z.mul_1_l.
    rewrite cadd_int_small by (assumption || nia). cbn [obind].
    assert (Hp : 0 <= v * (2 ^ n + 1) < 2 ^ (2 * n)) by nia.
    rewrite cmul_small by (assumption || nia). cbn [obind snd].
    rewrite wrap_small by (assumption || lia).
    rewrite IH by lia.
    f_equal. apply unit_scale_equiv; nia.
Qed.

Lemma change_bit_width_spec T v n m : ity_ok T -> 1 <= n <= iwidth T -> 1 <= m <= nvb T ->
  in_range T v -> 0 <= v < 2 ^ n ->
  change_bit_width T v n m = Some (unit_scale n m v).
Proof.
  intros HT Hn Hm Hv Hv2. unfold change_bit_width.
  pose proof (promo_ok' T HT) as HP. pose proof (nvb_promo T HT) as [Hn1 Hn2].
  pose proof (promo_width T HT) as [Hw Hw2].
  assert (Hnw : nvb T <= iwidth T) by (unfold nvb; destruct (isigned T); lia).
  replace ((0 <? n) && (n <=? iwidth T)) with true by lia.
  replace ((0 <? m) && (m <=? iwidth T)) with true by lia. cbn [negb].
  pose proof (range_small _ _ Hv).
  assert (2 ^ nvb T <= 2 ^ nvb (promo T)) by (apply Z.pow_le_mono_r; lia).
  rewrite (wrap_small (promo T) v) by (assumption || lia).
  destruct (Z.ltb_spec m n).
  - rewrite cshr_small by (assumption || lia). cbn [obind snd].
    pose proof (unit_scale_range n m v ltac:(lia) ltac:(lia) Hv2) as Hr.
    rewrite unit_scale_shrink in Hr |- * by lia. unfold int_cast_a.
    assert (2 ^ m <= 2 ^ nvb T) by (apply Z.pow_le_mono_r; lia).
    rewrite wrap_small by (assumption || lia). reflexivity.
  - apply expand_loop_spec; try assumption; try lia; reflexivity.
Qed.

(* ---- pack and unpack ---- *)

Lemma nvb_unsigned T : nvb (unsigned_type T) = iwidth T.
Proof. reflexivity. Qed.

Lemma unsigned_ok T : 1 <= iwidth T -> ity_ok (unsigned_type T).
Proof. intros. unfold ity_ok. cbn. assumption. Qed.

Lemma packed_range T N v : ity_ok T -> 0 <= N <= iwidth T -> 0 <= v < 2 ^ N ->
  in_range T (packed_form T N v).
Proof.
  intros HT HN Hv. pose proof (ity_ok_width _ HT). unfold packed_form, in_range, imin, imax.
  destruct (isigned T) eqn:E; cbn [andb].
  - assert (2 ^ iwidth T = 2 * 2 ^ (iwidth T - 1)).
    { rewrite <- Z.pow_succ_r by lia. f_equal. lia. }
    destruct (Z.eqb_spec N (iwidth T)) as [->|Hne]; cbn [andb].
    + destruct (Z.leb_spec (2 ^ (iwidth T - 1)) v); lia.
    + assert (2 ^ N <= 2 ^ (iwidth T - 1)) by (apply Z.pow_le_mono_r; lia). lia.
  - assert (2 ^ N <= 2 ^ iwidth T) by (apply Z.pow_le_mono_r; lia). lia.
Qed.

Lemma packed_small T N v : ity_ok T -> N <= nvb T -> packed_form T N v = v.
Proof.
  intros HT HN. unfold packed_form, nvb in *. destruct (isigned T); cbn [andb]; [|reflexivity].
  replace (N =? iwidth T) with false by lia. reflexivity.
Qed.

Lemma pack_int_spec T N U v : ity_ok T -> ity_ok U -> 0 <= N <= iwidth T -> in_range U v ->
  0 <= v < 2 ^ N -> pack_int T N U v = Some (packed_form T N v).
Proof.
  intros HT HU HN Hu Hv. pose proof (ity_ok_width _ HT). unfold pack_int.
  destruct (Z.leb_spec N (nvb T)) as [Hle|Hgt].
  - rewrite packed_small by assumption. f_equal. unfold int_cast_a. apply wrap_small; [assumption|].
    assert (2 ^ N <= 2 ^ nvb T) by (apply Z.pow_le_mono_r; lia). lia.
  - assert (ST : isigned T = true) by (unfold nvb in Hgt; destruct (isigned T); [reflexivity|lia]).
    assert (EN : N = iwidth T) by (unfold nvb in Hgt; rewrite ST in Hgt; lia).
    pose proof (promo_width T HT) as [Hw Hw2].
    set (ut := unsigned_type (promo T)).
    assert (Hut : ity_ok ut) by (apply unsigned_ok; lia).
    assert (2 ^ N <= 2 ^ iwidth (promo T)) by (apply Z.pow_le_mono_r; lia).
    assert (Hvu : in_range ut v).
    { apply urange. fold (iwidth ut). cbn. lia. }
    rewrite can_int_cast_spec by assumption.
    pose proof Hvu as Hvb. apply in_rangeb_spec in Hvb. rewrite Hvb.
    unfold int_cast_a. rewrite (wrap_id ut v) by assumption.
    rewrite twos_compl_sign_extend_spec; [|assumption|reflexivity|cbn; lia|assumption]. cbn [obind].
    set (W := iwidth (promo T)) in *. change (iwidth ut) with W.
    assert (HsN : 2 ^ N = 2 * 2 ^ (N - 1)).
    { rewrite <- Z.pow_succ_r by lia. f_equal. lia. }
    assert (HsW : 2 ^ W = 2 * 2 ^ (W - 1)).
    { rewrite <- Z.pow_succ_r by lia. f_equal. lia. }
    assert (2 ^ (N - 1) <= 2 ^ (W - 1)) by (apply Z.pow_le_mono_r; lia).
    assert (0 < 2 ^ (N - 1)) by (apply Z.pow_pos_nonneg; lia).
    assert (Es : signed_value N v = packed_form T N v).
    { unfold signed_value, packed_form. rewrite ST, EN, Z.eqb_refl. cbn [andb].
      rewrite <- EN. destruct (Z.ltb_spec v (2 ^ (N - 1))), (Z.leb_spec (2 ^ (N - 1)) v); lia. }
    assert (Rs : - 2 ^ (N - 1) <= signed_value N v < 2 ^ (N - 1)).
    { unfold signed_value. destruct (Z.ltb_spec v (2 ^ (N - 1))); lia. }
    rewrite cast_from_twos_compl_a_spec; try assumption; try reflexivity.
    2: { change (iwidth ut) with W. apply Z.mod_pos_bound. lia. }
    change (iwidth ut) with W. f_equal.
    assert (Ew : signed_value W (signed_value N v mod 2 ^ W) = signed_value N v).
    { set (s := signed_value N v) in *. clearbody s. unfold signed_value.
      destruct (Z.ltb_spec s 0).
      - replace (s mod 2 ^ W) with (s + 2 ^ W) by (apply Z.mod_unique with (-1); lia).
        destruct (Z.ltb_spec (s + 2 ^ W) (2 ^ (W - 1))); lia.
      - rewrite Z.mod_small by lia. destruct (Z.ltb_spec s (2 ^ (W - 1))); lia. }
    rewrite Ew, Es. apply wrap_id; [assumption|]. apply packed_range; assumption.
Qed.

Lemma unpack_int_a_spec N U T v : ity_ok T -> ity_ok U -> 0 <= N <= iwidth T -> N <= nvb U ->
  0 <= v < 2 ^ N -> unpack_int_a N U T (packed_form T N v) = Some v.
Proof.
  intros HT HU HN HNU Hv. pose proof (ity_ok_width _ HT). unfold unpack_int_a, int_cast_a.
  assert (HvU : wrap U v = v).
  { apply wrap_small; [assumption|]. assert (2 ^ N <= 2 ^ nvb U) by (apply Z.pow_le_mono_r; lia). lia. }
  destruct (Z.leb_spec N (nvb T)) as [Hle|Hgt].
  - rewrite packed_small by assumption. now rewrite HvU.
  - assert (ST : isigned T = true) by (unfold nvb in Hgt; destruct (isigned T); [reflexivity|lia]).
    assert (EN : N = iwidth T) by (unfold nvb in Hgt; rewrite ST in Hgt; lia).
    pose proof (promo_width T HT) as [Hw Hw2].
    set (ut := unsigned_type (promo T)).
    assert (Hut : ity_ok ut) by (apply unsigned_ok; lia).
    set (W := iwidth (promo T)) in *.
    rewrite int_mask_spec by (try assumption; change (nvb ut) with W; lia). cbn [obind].
    assert (HNW : 2 ^ N <= 2 ^ W) by (apply Z.pow_le_mono_r; lia).
    assert (0 < 2 ^ N) by (apply Z.pow_pos_nonneg; lia).
    assert (Hw0 : forall z, 0 <= z < 2 ^ W -> wrap ut z = z).
    { intros z Hz. apply wrap_id; [assumption|]. apply urange. cbn. assumption. }
    assert (Em : Z.land (wrap ut (packed_form T N v)) (2 ^ N - 1) = v).
    { replace (2 ^ N - 1) with (Z.ones N) by (rewrite Z.ones_equiv; lia).
      rewrite Z.land_ones by lia.
      change (wrap ut (packed_form T N v)) with (packed_form T N v mod 2 ^ W).
      assert (Hd : 2 ^ W = 2 ^ N * 2 ^ (W - N)) by (rewrite <- Z.pow_add_r by lia; f_equal; lia).
      rewrite Hd.
      assert (E : packed_form T N v mod (2 ^ N * 2 ^ (W - N)) mod 2 ^ N = packed_form T N v mod 2 ^ N).
      { rewrite Z.rem_mul_r by (try (apply Z.pow_pos_nonneg); lia).
        rewrite (Z.mul_comm (2 ^ N)), Z.mod_add, Z.mod_mod by lia. reflexivity. }
      rewrite E. unfold packed_form. destruct (_ && _ && _).
      - symmetry. apply Z.mod_unique with (-1); lia.
      - apply Z.mod_small. lia. }
    unfold cand. cbn [fst snd]. rewrite uac_same by (cbn; fold W; lia).
    assert (Hm : wrap ut (2 ^ N - 1) = 2 ^ N - 1) by (apply Hw0; lia).
    rewrite Hm.
    assert (Hwr : wrap ut (wrap ut (packed_form T N v)) = wrap ut (packed_form T N v)).
    { apply wrap_id; [assumption|]. now apply wrap_range. }
    rewrite Hwr, Em. rewrite (Hw0 v) by lia. rewrite (Hw0 v) by lia. now rewrite HvU.
Qed.

Lemma unpacked_type_ok T N : ity_ok T -> 0 <= N <= iwidth T ->
  ity_ok (unpacked_type T N) /\ N <= nvb (unpacked_type T N).
Proof.
  intros HT HN. pose proof (promo_width T HT). unfold unpacked_type.
  destruct (Z.leb_spec N (nvb (promo T))).
  - split; [now apply promo_ok'|assumption].
  - split; [apply unsigned_ok; lia|]. rewrite nvb_unsigned. lia.
Qed.

Lemma unpack_int_spec N T v : ity_ok T -> 0 <= N <= iwidth T -> 0 <= v < 2 ^ N ->
  unpack_int N T (packed_form T N v) = Some v.
Proof.
  intros HT HN Hv. pose proof (unpacked_type_ok T N HT HN) as [K1 K2].
  unfold unpack_int. now apply unpack_int_a_spec.
Qed.

Lemma int_to_int_spec M I N J v : ity_ok I -> ity_ok J ->
  1 <= M <= iwidth J -> 1 <= N <= iwidth I -> 0 <= v < 2 ^ M ->
  int_to_int M I N J (packed_form J M v) = Some (packed_form I N (unit_scale M N v)).
Proof.
  intros HI HJ HM HN Hv. unfold int_to_int.
  pose proof (unpacked_type_ok J M HJ ltac:(lia)) as [A1 A2].
  pose proof (unpacked_type_ok I N HI ltac:(lia)) as [B1 B2].
  pose proof (common2_facts _ _ A1 B1) as F. cbv zeta in F.
  destruct F as (F1 & F2 & F3 & _).
  set (T3 := common2 (unpacked_type J M) (unpacked_type I N)) in *.
  rewrite unpack_int_spec by (assumption || lia). cbn [obind].
  assert (2 ^ M <= 2 ^ nvb T3) by (apply Z.pow_le_mono_r; lia).
  assert (2 ^ N <= 2 ^ nvb T3) by (apply Z.pow_le_mono_r; lia).
  assert (nvb T3 <= iwidth T3) by (unfold nvb; destruct (isigned T3); lia).
  rewrite wrap_small by (assumption || lia).
  rewrite change_bit_width_spec; [|assumption|lia|lia|apply small_range; [assumption|lia]|assumption].
  cbn [obind].
  pose proof (unit_scale_range M N v ltac:(lia) ltac:(lia) Hv).
  rewrite pack_int_spec; [reflexivity|assumption|assumption|lia| |assumption].
  apply small_range; [assumption|lia].
Qed.
