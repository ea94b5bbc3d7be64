From Coq Require Import ZArith Lia Bool List ZifyBool.
From Verif Require Import CInt IntModel IntSpec IntProofs IntProofs2.
Import ListNotations.
Open Scope Z_scope.

(* ------------------------------------------------------------------ *)
(* periodic modulus *)

Lemma quot_abs_le a b : b <> 0 -> Z.abs (Z.quot a b) <= Z.abs a.
Proof.
  intros Hb. rewrite <- Z.quot_abs by assumption.
  rewrite Z.quot_div_nonneg by lia. apply Z.div_le_upper_bound; nia.
Qed.

Lemma quot_abs_half a b : 2 <= Z.abs b -> 2 * Z.abs (Z.quot a b) <= Z.abs a.
Proof.
  intros Hb. rewrite <- Z.quot_abs by lia. rewrite Z.quot_div_nonneg by lia.
  pose proof (Z.mul_div_le (Z.abs a) (Z.abs b)). pose proof (Z.div_pos (Z.abs a) (Z.abs b)). nia.
Qed.

Lemma quot_in_range t a b : ity_ok t -> in_range t a -> in_range t b -> b <> 0 -> b <> -1 ->
  in_range t (Z.quot a b).
Proof.
  intros Ht Ha Hb Hb0 Hb1. pose proof (pow_nvb_pos t Ht). 
  destruct (isigned t) eqn:S.
  - rewrite in_range_nvb in *. rewrite S in *.
    destruct (Z.eq_dec b 1) as [->|]; [rewrite Z.quot_1_r; lia|].
    pose proof (quot_abs_half a b ltac:(lia)). lia.
  - pose proof (in_range_unsigned_nonneg t a S Ha). pose proof (in_range_unsigned_nonneg t b S Hb).
    rewrite Z.quot_div_nonneg by lia. rewrite in_range_nvb in *. rewrite S in *.
    assert (0 <= a / b <= a) by (split; [apply Z.div_pos; lia|apply Z.div_le_upper_bound; nia]).
    lia.
Qed.

Lemma mod_of_rem_same a b : b <> 0 ->
  (0 < b /\ 0 <= Z.rem a b \/ b < 0 /\ Z.rem a b <= 0) -> a mod b = Z.rem a b.
Proof.
  intros Hb H. pose proof (Z.quot_rem' a b).
  pose proof (Z.rem_bound_abs a b Hb).
  symmetry. destruct H as [[G1 G2]|[G1 G2]].
  - apply (Z.mod_unique_pos a b (Z.quot a b)); lia.
  - apply (Z.mod_unique_neg a b (Z.quot a b)); lia.
Qed.

Lemma mod_of_rem_diff a b : b <> 0 ->
  (0 < b /\ Z.rem a b < 0 \/ b < 0 /\ 0 < Z.rem a b) -> a mod b = b + Z.rem a b.
Proof.
  intros Hb H. pose proof (Z.quot_rem' a b).
  pose proof (Z.rem_bound_abs a b Hb).
  symmetry. destruct H as [[G1 G2]|[G1 G2]].
  - apply (Z.mod_unique_pos a b (Z.quot a b - 1)); lia.
  - apply (Z.mod_unique_neg a b (Z.quot a b - 1)); lia.
Qed.

Lemma periodic_same_spec t a b : ity_ok t -> promo t = t -> in_range t a -> in_range t b ->
  b <> 0 -> int_periodic_mod_same t a b = Some (a mod b).
Proof.
  intros Ht Hp Ha Hb Hb0. unfold int_periodic_mod_same, int_odd_mod, int_not_equal.
  assert (in_range t_int (-1)) by (rewrite in_range_nvb; cbn; lia).
  rewrite int_equal_spec by (auto; exact t_int_ok).
  destruct (Z.eqb_spec b (-1)); cbn [negb].
  - subst b. cbn [obind]. unfold cge, cle.
    rewrite !crel_same by auto using in_range_0. cbn.
    f_equal. pose proof (Z.mod_neg_bound a (-1)). lia.
  - rewrite crem_same by (rewrite ?Hp; auto using quot_in_range). cbn [obind snd].
    assert (Hr : in_range t (Z.rem a b)).
    { pose proof (Z.rem_bound_abs a b Hb0). pose proof (Z.rem_sign_mul a b Hb0).
      pose proof (in_range_0 t Ht).
      destruct (Z_lt_le_dec a 0).
      - assert (a <= Z.rem a b <= 0); [|unfold in_range in *; lia].
        pose proof (Z.rem_nonpos a b Hb0 ltac:(lia)).
        pose proof (Z.quot_rem' a b).
        assert (Z.abs (Z.rem a b) <= Z.abs a); [|lia].
        rewrite <- Z.rem_abs by assumption. apply Z.rem_le; lia.
      - assert (0 <= Z.rem a b <= a); [|unfold in_range in *; lia].
        pose proof (Z.rem_nonneg a b Hb0 ltac:(lia)).
        assert (Z.abs (Z.rem a b) <= Z.abs a); [|lia].
        rewrite <- Z.rem_abs by assumption. apply Z.rem_le; lia. }
    unfold cge, cle. rewrite !crel_same by auto using in_range_0.
    rewrite !Z.geb_leb.
    assert (Hfin : (0 < b /\ Z.rem a b < 0 \/ b < 0 /\ 0 < Z.rem a b) ->
      (let* s := cadd (t, b) (t, Z.rem a b) in Some (snd s)) = Some (a mod b)).
    { intros Hd. rewrite (mod_of_rem_diff a b Hb0 Hd). unfold cadd.
      rewrite cbin_same by assumption. rewrite Hp.
      pose proof (Z.rem_bound_abs a b Hb0).
      rewrite norm_in; [reflexivity| |assumption].
      pose proof (in_range_0 t Ht). unfold in_range in *. lia. }
    destruct (Z.leb_spec 0 b).
    + destruct (Z.leb_spec 0 (Z.rem a b)).
      * rewrite mod_of_rem_same; [reflexivity|assumption|left; lia].
      * apply Hfin. left. lia.
    + destruct (Z.leb_spec (Z.rem a b) 0).
      * rewrite mod_of_rem_same; [reflexivity|assumption|right; lia].
      * apply Hfin. right. lia.
Qed.

Lemma mod_in_range U a b : ity_ok U -> in_range U b -> b <> 0 -> in_range U (a mod b).
Proof.
  intros HU Hb Hb0. pose proof (in_range_0 U HU). unfold in_range in *.
  destruct (Z_lt_le_dec b 0).
  - pose proof (Z.mod_neg_bound a b). lia.
  - pose proof (Z.mod_pos_bound a b). lia.
Qed.

Lemma lnot_eq x : Z.lnot x = -1 - x.
Proof. pose proof (Z.add_lnot_diag x). lia. Qed.

Lemma int_periodic_mod_spec T U a b : ity_ok T -> ity_ok U -> in_range T a -> in_range U b ->
  b <> 0 -> int_periodic_mod T U a b = Some (a mod b).
Proof.
  intros HT HU Ha Hb Hb0. unfold int_periodic_mod, int_cast_a.
  destruct (promo_common_facts T U HT HU) as (H1 & H2 & H3 & H4 & H5 & H6 & H7 & H8).
  set (ty := promo (common2 T U)) in *.
  assert (Hgen : in_range ty a -> in_range ty b ->
    (let* c := int_periodic_mod_same ty (wrap ty a) (wrap ty b) in Some (wrap U c))
    = Some (a mod b)).
  { intros Hat Hbt. rewrite !wrap_id by assumption. rewrite periodic_same_spec by assumption.
    cbn [obind]. rewrite wrap_id; auto using mod_in_range. }
  destruct (isigned ty) eqn:S; cbn [negb].
  - apply Hgen; eauto using in_range_signed.
  - specialize (H8 eq_refl).
    destruct (common2_facts T U HT HU) as (G1 & G2 & G3 & G4 & G5 & G6 & G7 & G8 & G9).
    unfold is_negative.
    destruct (isigned T) eqn:ST, (isigned U) eqn:SU; try (specialize (G7 eq_refl); congruence).
    + (* T signed, U unsigned *)
      pose proof (in_range_unsigned_nonneg U b SU Hb).
      assert (Hbt : in_range ty b) by eauto using in_range_nonneg.
      destruct (Z.ltb_spec a 0).
      * rewrite (wrap_id ty b) by assumption.
        assert (Hat : wrap ty (Z.lnot (wrap ty a)) = -1 - a).
        { destruct (wrap_cong ty a H1) as [k Hk]. rewrite lnot_eq, Hk.
          apply (wrap_eq_of_cong ty _ _ (-k)); [assumption| |ring].
          apply (in_range_nonneg T); auto; [lia|]. rewrite in_range_nvb, ST in *. lia. }
        unfold cnot. cbn [fst snd]. rewrite H2, Hat.
        assert (Hnt : in_range ty (-1 - a)) by (rewrite <- Hat; now apply wrap_range).
        rewrite crem_same by (rewrite ?H2; auto; apply quot_in_range; auto; lia).
        rewrite H2. cbn [obind]. unfold csub.
        rewrite cbin_same; auto using in_range_1. rewrite H2.
        assert (Hb1 : in_range ty (b - 1)).
        { pose proof (in_range_0 ty H1). unfold in_range in *; lia. }
        rewrite norm_in by assumption. cbn [obind].
        rewrite Z.rem_mod_nonneg by lia.
        pose proof (Z.mod_pos_bound (-1 - a) b ltac:(lia)).
        assert (Hm : in_range ty ((-1 - a) mod b)) by (now apply mod_in_range).
        rewrite cbin_same by assumption. rewrite H2.
        assert (Hfin : b - 1 - (-1 - a) mod b = a mod b).
        { apply (Z.mod_unique_pos a b (-1 - (-1 - a) / b)); [lia|].
          pose proof (Z.div_mod (-1 - a) b ltac:(lia)). lia. }
        rewrite Hfin. rewrite norm_in by (auto using mod_in_range). cbn [obind snd].
        rewrite wrap_id; auto using mod_in_range.
      * apply Hgen; [|assumption]. eauto using in_range_nonneg.
    + (* T unsigned, U signed *)
      pose proof (in_range_unsigned_nonneg T a ST Ha).
      assert (Hat : in_range ty a) by eauto using in_range_nonneg.
      destruct (Z.ltb_spec b 0).
      * rewrite (wrap_id ty a) by assumption. unfold int_neg. rewrite S.
        assert (Hnb : in_range ty (- b)).
        { specialize (G9 eq_refl eq_refl). rewrite H8 in G9.
          assert (2 ^ nvb U < 2 ^ nvb ty).
          { pose proof (nvb_pos U HU). apply Z.pow_lt_mono_r; lia. }
          rewrite in_range_nvb in *. rewrite S, SU in *. lia. }
        assert (Hn : cadd (cnot (ty, wrap ty b)) (promo ty, 1) = Some (ty, - b)).
        { unfold cnot, cadd. cbn [fst snd]. rewrite !H2.
          rewrite cbin_same; auto using wrap_range, in_range_1. rewrite H2.
          rewrite norm_unsigned by assumption. f_equal. f_equal.
          destruct (wrap_cong ty b H1) as [k Hk].
          destruct (wrap_cong ty (Z.lnot (wrap ty b)) H1) as [m Hm].
          apply (wrap_eq_of_cong ty _ _ (m - k)); [assumption|assumption|].
          rewrite Hm, lnot_eq, Hk. ring. }
        rewrite Hn. cbn [obind].
        rewrite crem_same by (rewrite ?H2; auto; try lia; apply quot_in_range; auto; lia).
        cbn [obind snd]. rewrite Z.rem_mod_nonneg by lia.
        pose proof (Z.mod_pos_bound a (- b) ltac:(lia)).
        assert (Hm : in_range ty (a mod - b)) by (apply mod_in_range; auto; lia).
        rewrite wrap_id by assumption.
        destruct (Z.eqb_spec (a mod - b) 0) as [Hz|Hz]; cbn [negb].
        -- rewrite wrap_id by auto using in_range_0. f_equal. symmetry.
           replace b with (- - b) by lia. apply Z.mod_opp_r_z; [lia|assumption].
        -- assert (Hcu : in_range (promo U) (a mod - b)).
           { apply in_range_promo; auto. rewrite in_range_nvb, SU in *. lia. }
           pose proof (promo_ok U HU) as HPU.
           rewrite wrap_id by assumption. unfold cadd.
           assert (HbP : in_range (promo U) b) by auto using in_range_promo.
           rewrite cbin_same by assumption. rewrite promo_idem.
           assert (Hfin : b + a mod - b = a mod b).
           { pose proof (Z.mod_opp_r_nz a (- b) ltac:(lia) Hz) as Ho.
             rewrite Z.opp_involutive in Ho. lia. }
           rewrite Hfin. rewrite norm_in by (auto using mod_in_range).
           cbn [obind snd]. rewrite wrap_id; auto using mod_in_range.
      * apply Hgen; [assumption|]. eauto using in_range_nonneg.
    + apply Hgen.
      * pose proof (in_range_unsigned_nonneg T a ST Ha). eauto using in_range_nonneg.
      * pose proof (in_range_unsigned_nonneg U b SU Hb). eauto using in_range_nonneg.
Qed.

(* ------------------------------------------------------------------ *)
(* bit positions *)

Lemma find_msb_loop_spec vt : ity_ok vt -> promo vt = vt ->
  forall fuel v i j, 0 <= i < j -> j <= iwidth vt -> j - i <= Z.of_nat fuel ->
  0 <= v < 2 ^ (j - i) -> in_range vt v -> (v = 0 -> i = 0) ->
  find_msb_loop fuel vt v i j = Some (if v =? 0 then -1 else i + Z.log2 v).
Proof.
  intros Ht Hp. induction fuel as [|fuel IH]; intros v i j Hij Hj Hf Hv Hvr Hz; [lia|].
  cbn [find_msb_loop]. rewrite Z.quot_div_nonneg by lia.
  set (n := (j - i) / 2).
  assert (Hn2 : 2 * n <= j - i < 2 * n + 2).
  { unfold n. pose proof (Z.div_mod (j - i) 2 ltac:(lia)).
    pose proof (Z.mod_pos_bound (j - i) 2 ltac:(lia)). lia. }
  destruct (Z.ltb_spec 0 n).
  - unfold cshr. cbn [fst snd]. rewrite Hp.
    replace (0 <=? n) with true by lia. replace (n <? iwidth vt) with true by lia.
    cbn [andb obind snd]. rewrite Z.shiftr_div_pow2 by lia.
    assert (0 < 2 ^ n) by (apply Z.pow_pos_nonneg; lia).
    assert (Hw : 0 <= v / 2 ^ n <= v).
    { split; [apply Z.div_pos; lia|]. apply Z.div_le_upper_bound; nia. }
    rewrite wrap_id; [|assumption|pose proof (in_range_0 vt Ht); unfold in_range in *; lia].
    destruct (Z.eqb_spec (v / 2 ^ n) 0) as [E|E]; cbn [negb].
    + apply IH; auto; try lia.
      replace (i + n - i) with n by lia. split; [lia|].
      destruct (Z_lt_le_dec v (2 ^ n)); [assumption|].
      assert (1 <= v / 2 ^ n) by (apply Z.div_le_lower_bound; lia). lia.
    + rewrite IH; try lia.
      * replace (v / 2 ^ n =? 0) with false by lia. replace (v =? 0) with false by (destruct (Z.eqb_spec v 0); [subst; rewrite Z.div_0_l in E; lia|reflexivity]).
        f_equal. rewrite <- Z.shiftr_div_pow2 by lia.
        assert (v <> 0) by (intros ->; rewrite Z.div_0_l in E; lia).
        assert (n <= Z.log2 v).
        { apply Z.log2_le_pow2; [lia|]. destruct (Z_lt_le_dec v (2 ^ n)); [|lia].
          rewrite Z.div_small in E; lia. }
        rewrite Z.log2_shiftr by lia. lia.
      * split; [lia|]. apply Z.div_lt_upper_bound; [lia|].
        rewrite <- Z.pow_add_r by lia. replace (n + (j - (i + n))) with (j - i) by lia. lia.
      * pose proof (in_range_0 vt Ht); unfold in_range in *; lia.
  - assert (j - i = 1) by lia. rewrite H0 in Hv. change (2 ^ 1) with 2 in Hv.
    destruct (Z.eqb_spec v 0); cbn [negb].
    + rewrite Hz by assumption. reflexivity.
    + assert (v = 1) by lia. subst v. change (Z.log2 1) with 0. f_equal. lia.
Qed.

Lemma int_find_msb_pos_fallback_spec T v : ity_ok T -> in_range T v -> 0 <= v ->
  int_find_msb_pos_fallback T v = Some (if v =? 0 then -1 else Z.log2 v).
Proof.
  intros HT Hv H0. unfold int_find_msb_pos_fallback. rewrite is_negative_false by assumption.
  cbn [negb]. unfold int_cast_a.
  pose proof (promo_ok T HT) as HP.
  pose proof (unsigned_type_ok _ HP) as HU.
  set (vt := unsigned_type (promo T)) in *.
  assert (Hvr : in_range vt v) by (apply to_unsigned_nonneg; auto using in_range_promo).
  rewrite wrap_id by assumption.
  assert (Hpv : promo vt = vt).
  { apply promo_wide. unfold vt, unsigned_type. cbn. apply promo_width. }
  pose proof (nvb_pos T HT).
  rewrite (find_msb_loop_spec vt HU Hpv) by
    (auto; try lia;
     try (unfold vt, unsigned_type; cbn [iwidth]; pose proof (promo_width_ge T);
          unfold nvb; destruct (isigned T); lia);
     try (rewrite in_range_nvb in Hv; rewrite Z.sub_0_r; lia)).
  f_equal.
Qed.

Lemma countl_zero_spec n u : 0 <= u < 2 ^ Z.of_nat n ->
  countl_zero n u = Z.of_nat n - 1 - (if u =? 0 then -1 else Z.log2 u).
Proof.
  revert u. induction n as [|n IH]; intros u Hu; cbn [countl_zero].
  - cbn in Hu. replace u with 0 by lia. reflexivity.
  - destruct (Z.testbit u (Z.of_nat n)) eqn:E.
    + destruct (Z.eqb_spec u 0) as [->|N]; [now rewrite Z.testbit_0_l in E|].
      assert (Z.of_nat n <= Z.log2 u).
      { destruct (Z_lt_le_dec (Z.log2 u) (Z.of_nat n)) as [L|L]; [|exact L].
        rewrite Z.bits_above_log2 in E by lia. discriminate. }
      assert (Z.log2 u < Z.of_nat (S n)) by (apply Z.log2_lt_pow2; lia).
      lia.
    + rewrite IH; [lia|]. split; [lia|].
      destruct (Z_lt_le_dec u (2 ^ Z.of_nat n)) as [L|L]; [exact L|exfalso].
      rewrite Nat2Z.inj_succ, Z.pow_succ_r in Hu by lia.
      assert (Hl : Z.log2 u = Z.of_nat n).
      { apply Z.log2_unique; [lia|]. rewrite Z.pow_succ_r by lia. lia. }
      rewrite <- Hl, Z.bit_log2 in E; [discriminate|].
      pose proof (Z.pow_pos_nonneg 2 (Z.of_nat n)). lia.
Qed.

Lemma int_find_msb_pos_spec T v : ity_ok T -> in_range T v -> 0 <= v ->
  int_find_msb_pos T v = Some (if v =? 0 then -1 else Z.log2 v).
Proof.
  intros HT Hv H0. unfold int_find_msb_pos, traits_find_msb_pos.
  pose proof (unsigned_type_ok _ HT) as HU.
  assert (Hvr : in_range (unsigned_type T) v) by (now apply to_unsigned_nonneg).
  rewrite wrap_id by assumption.
  pose proof (ity_ok_width _ HT).
  rewrite countl_zero_spec.
  - rewrite Z2Nat.id by lia. f_equal. lia.
  - rewrite Z2Nat.id by lia. rewrite in_range_nvb in Hvr. unfold nvb, unsigned_type in Hvr.
    cbn in Hvr. lia.
Qed.

(* a negative value has its sign bit as most significant bit *)
Lemma int_find_msb_pos_neg T v : ity_ok T -> in_range T v -> v < 0 ->
  int_find_msb_pos T v = Some (iwidth T - 1).
Proof.
  intros HT Hv H0. unfold int_find_msb_pos, traits_find_msb_pos.
  pose proof (ity_ok_width _ HT) as Hw. f_equal.
  replace (Z.to_nat (iwidth T)) with (S (Z.to_nat (iwidth T - 1))) by lia.
  cbn [countl_zero]. rewrite Z2Nat.id by lia.
  unfold wrap, unsigned_type. cbn [iwidth isigned].
  rewrite Z.mod_pow2_bits_low by lia.
  replace (Z.testbit v (iwidth T - 1)) with true; [lia|].
  symmetry. rewrite in_range_nvb in Hv. unfold nvb in Hv.
  destruct (isigned T) eqn:Es; [|lia].
  apply Z.testbit_true; [lia|].
  replace (v / 2 ^ (iwidth T - 1)) with (-1); [reflexivity|].
  apply (Z.div_unique _ _ _ (v + 2 ^ (iwidth T - 1))); lia.
Qed.

Lemma land_le_l a b : 0 <= a -> Z.land a b <= a.
Proof.
  intros Ha. assert (E : Z.ldiff (Z.land a b) a = 0).
  { apply Z.bits_inj'. intros n Hn. rewrite Z.ldiff_spec, Z.land_spec, Z.bits_0.
    destruct (Z.testbit a n), (Z.testbit b n); reflexivity. }
  apply Z.sub_nocarry_ldiff in E.
  assert (0 <= Z.ldiff a (Z.land a b)) by (apply Z.ldiff_nonneg; lia). lia.
Qed.

Lemma int_is_power_of_two_spec T v : ity_ok T -> in_range T v ->
  exists b, int_is_power_of_two T v = Some b /\
    (b = true <-> exists k, 0 <= k /\ v = 2 ^ k).
Proof.
  intros HT Hv. unfold int_is_power_of_two, cgt.
  pose proof (promo_ok T HT) as HP. pose proof (in_range_promo T v HT Hv) as Hvp.
  rewrite crel_same by auto using in_range_0. rewrite Z.gtb_ltb.
  destruct (Z.ltb_spec 0 v).
  - assert (Hu : uac (promo T) t_int = promo T).
    { unfold uac. rewrite promo_idem. change (promo t_int) with t_int. cbn [isigned t_int].
      change (iwidth t_int) with 32. pose proof (promo_width T).
      destruct (isigned (promo T)) eqn:S; cbn [Bool.eqb].
      - replace (32 <=? iwidth (promo T)) with true by lia. reflexivity.
      - replace (iwidth (promo T) <? 32) with false by lia. reflexivity. }
    unfold csub, cbin. cbn [fst snd]. rewrite Hu. rewrite !wrap_id by auto using in_range_1.
    assert (Hd : in_range (promo T) (v - 1)).
    { pose proof (in_range_0 _ HP). unfold in_range in *. lia. }
    rewrite norm_in by assumption. cbn [obind].
    unfold cand. cbn [fst snd]. rewrite uac_same, promo_idem.
    rewrite !(wrap_id (promo T) v), !(wrap_id (promo T) (v - 1)) by assumption.
    eexists. split; [reflexivity|].
    assert (Hland : 0 <= Z.land v (v - 1) <= v).
    { split; [apply Z.land_nonneg; lia|]. 
      pose proof (land_le_l v (v - 1) ltac:(lia)). lia. }
    rewrite wrap_id; [|assumption|pose proof (in_range_0 _ HP); unfold in_range in *; lia].
    rewrite Z.eqb_eq. split.
    + intros Hz. exists (Z.log2 v). split; [apply Z.log2_nonneg|].
      destruct (Z.log2_spec v ltac:(lia)) as [Hlo Hhi].
      destruct (Z.eq_dec v (2 ^ Z.log2 v)) as [|Hne]; [assumption|exfalso].
      (* the top bit survives in v & (v-1) *)
      pose proof (Z.log2_nonneg v).
      assert (Hb1 : Z.testbit v (Z.log2 v) = true) by (apply Z.bit_log2; lia).
      assert (Hl2 : Z.log2 (v - 1) = Z.log2 v).
      { apply Z.log2_unique; [lia|]. lia. }
      assert (Hb2 : Z.testbit (v - 1) (Z.log2 v) = true).
      { rewrite <- Hl2. apply Z.bit_log2. lia. }
      assert (Hb3 : Z.testbit (Z.land v (v - 1)) (Z.log2 v) = true)
        by now rewrite Z.land_spec, Hb1, Hb2.
      rewrite Hz, Z.testbit_0_l in Hb3. discriminate.
    + intros (k & Hk & ->).
      replace (2 ^ k - 1) with (Z.ones k) by (rewrite Z.ones_equiv; lia).
      rewrite Z.land_ones by lia. apply Z.mod_same. lia.
  - exists false. split; [reflexivity|]. split; [discriminate|].
    intros (k & Hk & ->). pose proof (Z.pow_pos_nonneg 2 k). lia.
Qed.

Lemma int_mask_spec T n : ity_ok T -> 0 <= n <= nvb T -> int_mask T n = Some (2 ^ n - 1).
Proof.
  intros HT Hn. unfold int_mask, int_cast_a. destruct (Z.ltb_spec 0 n).
  - replace (n <=? nvb T) with true by lia. unfold cshr. cbn [fst snd].
    pose proof (promo_width_ge T).
    assert (nvb T - n < iwidth (promo T)) by (unfold nvb in *; destruct (isigned T); lia).
    replace (0 <=? nvb T - n) with true by lia.
    replace (nvb T - n <? iwidth (promo T)) with true by lia. cbn [andb obind snd].
    rewrite imax_nvb. rewrite Z.shiftr_div_pow2 by lia.
    assert (E : (2 ^ nvb T - 1) / 2 ^ (nvb T - n) = 2 ^ n - 1).
    { symmetry. apply (Z.div_unique_pos _ _ _ (2 ^ (nvb T - n) - 1)).
      - assert (0 < 2 ^ (nvb T - n)) by (apply Z.pow_pos_nonneg; lia). lia.
      - rewrite Z.mul_sub_distr_l, <- Z.pow_add_r by lia.
        replace (nvb T - n + n) with (nvb T) by lia. lia. }
    rewrite E. rewrite wrap_id; [reflexivity|assumption|].
    rewrite in_range_nvb. assert (2 ^ n <= 2 ^ nvb T) by (apply Z.pow_le_mono_r; lia).
    assert (0 < 2 ^ n) by (apply Z.pow_pos_nonneg; lia).
    destruct (isigned T); lia.
  - replace n with 0 by lia. reflexivity.
Qed.

(* ------------------------------------------------------------------ *)
(* square root *)

Lemma newton_ge v x s : 0 < x -> 0 <= s -> s * s <= v -> s <= (x + v / x) / 2.
Proof.
  intros Hx Hs Hv. apply Z.div_le_lower_bound; [lia|].
  assert (2 * s - x <= v / x); [|lia].
  apply Z.div_le_lower_bound; [lia|]. pose proof (Z.square_nonneg (x - s)). nia.
Qed.

Lemma newton_stop v x : 0 < x -> x <= (x + v / x) / 2 -> x * x <= v.
Proof.
  intros Hx H. assert (x <= v / x).
  { pose proof (Z.mul_div_le (x + v / x) 2 ltac:(lia)). lia. }
  pose proof (Z.mul_div_le v x Hx). nia.
Qed.

Lemma int_sqrt_step ty v x : ity_ok ty -> promo ty = ty -> 31 <= nvb ty -> 
  in_range ty v -> 0 < v -> in_range ty x -> 0 < x ->
  in_range ty (x + v / x) ->
  (let* q := cdiv (ty, v) (ty, x) in
   let* s := cadd (ty, x) q in cshr s 1) = Some (ty, (x + v / x) / 2).
Proof.
  intros Ht Hp Hn Hv Hv0 Hx Hx0 Hs.
  assert (Hq : Z.quot v x = v / x) by (apply Z.quot_div_nonneg; lia).
  assert (Hqr : in_range ty (v / x)).
  { assert (0 <= v / x <= v) by (split; [apply Z.div_pos; lia|apply Z.div_le_upper_bound; nia]).
    pose proof (in_range_0 _ Ht). unfold in_range in *. lia. }
  rewrite cdiv_same by (rewrite ?Hp, ?Hq; auto; lia). rewrite Hp, Hq. cbn [obind].
  unfold cadd. rewrite cbin_same by assumption. rewrite Hp.
  rewrite norm_in by assumption. cbn [obind]. unfold cshr. cbn [fst snd]. rewrite Hp.
  replace (0 <=? 1) with true by lia.
  replace (1 <? iwidth ty) with true by (unfold nvb in Hn; destruct (isigned ty); lia).
  cbn [andb]. rewrite Z.shiftr_div_pow2 by lia. reflexivity.
Qed.

Lemma obind_assoc {A B C} (m : option A) (f : A -> option B) (g : B -> option C) :
  obind (obind m f) g = obind m (fun x => obind (f x) g).
Proof. destruct m; reflexivity. Qed.

Lemma int_sqrt_loop_spec ty v : ity_ok ty -> promo ty = ty -> 31 <= nvb ty ->
  in_range ty v -> 0 < v ->
  forall fuel v0, 0 < v0 -> v0 < Z.of_nat fuel ->
  v0 * v0 <= 4 * v -> Z.sqrt v <= v0 ->
  int_sqrt_loop fuel ty v v0 ((v0 + v / v0) / 2) = Some (Z.sqrt v).
Proof.
  intros Ht Hp Hn Hv Hv0. pose proof (Z.sqrt_spec v ltac:(lia)) as Hs; cbv zeta in Hs.
  assert (Hs1 : 1 <= Z.sqrt v) by (apply Z.sqrt_le_square; lia).
  assert (Hsum : forall x, 0 < x -> x * x <= 4 * v -> Z.sqrt v <= x ->
            in_range ty x /\ in_range ty (x + v / x)).
  { intros x Hx H4 Hle.
    assert (v / x <= x + 2).
    { assert (v / x < x + 3); [|lia]. apply Z.div_lt_upper_bound; [lia|]. nia. }
    assert (0 <= v / x) by (apply Z.div_pos; lia).
    assert (2 ^ 31 <= 2 ^ nvb ty) by (apply Z.pow_le_mono_r; lia).
    rewrite !in_range_nvb in *. change (2 ^ 31) with 2147483648 in *.
    assert (x + v / x < 2 ^ nvb ty).
    { destruct (Z_lt_le_dec x 16); [lia|]. nia. }
    destruct (isigned ty); lia. }
  induction fuel as [|fuel IH]; intros x Hx Hf H4 Hle; [lia|].
  destruct (Hsum x Hx H4 Hle) as [Hxr Hxs].
  cbn [int_sqrt_loop].
  pose proof (newton_ge v x (Z.sqrt v) Hx ltac:(lia) ltac:(lia)) as Hge.
  set (y := (x + v / x) / 2) in *.
  assert (Hyr : in_range ty y).
  { assert (0 <= y <= x + v / x).
    { unfold y. pose proof (Z.div_pos v x). split; [apply Z.div_pos; lia|].
      apply Z.div_le_upper_bound; lia. }
    pose proof (in_range_0 _ Ht). unfold in_range in *. lia. }
  unfold clt. rewrite crel_same by assumption.
  destruct (Z.ltb_spec y x).
  - assert (Hy4 : y * y <= 4 * v) by nia.
    destruct (Hsum y ltac:(lia) Hy4 Hge) as [_ Hsum'].
    pose proof (int_sqrt_step ty v y Ht Hp Hn Hv Hv0 Hyr ltac:(lia) Hsum') as Hstep.
    destruct (cdiv (ty, v) (ty, y)) as [q|]; [|discriminate]. cbn [obind] in *.
    destruct (cadd (ty, y) q) as [s|]; [|discriminate]. cbn [obind] in *.
    rewrite Hstep. cbn [obind snd].
    assert (Hzr : in_range ty ((y + v / y) / 2)).
    { assert (0 <= (y + v / y) / 2 <= y + v / y).
      { pose proof (Z.div_pos v y). split; [apply Z.div_pos; lia|].
        apply Z.div_le_upper_bound; lia. }
      pose proof (in_range_0 _ Ht). unfold in_range in *. lia. }
    rewrite wrap_id by assumption. apply IH; auto; lia.
  - f_equal. pose proof (newton_stop v x Hx ltac:(lia)). nia.
Qed.

Lemma promo_nvb31 t : ity_ok t -> 31 <= nvb (promo t).
Proof.
  intros H. pose proof (promo_width t). unfold nvb. destruct (isigned (promo t)); lia.
Qed.

Lemma int_sqrt_spec T v : ity_ok T -> in_range T v -> 0 <= v ->
  int_sqrt T v = Some (Z.sqrt v).
Proof.
  intros HT Hv Hv0. unfold int_sqrt. rewrite is_negative_false by assumption.
  destruct (Z.eqb_spec v 0); cbn [negb]; [subst; reflexivity|].
  set (ty := promo T).
  assert (Ht : ity_ok ty) by now apply promo_ok.
  assert (Hp : promo ty = ty) by apply promo_idem.
  assert (Hn : 31 <= nvb ty) by now apply promo_nvb31.
  assert (Hvt : in_range ty v) by now apply in_range_promo.
  assert (Hut : ity_ok (unsigned_type ty)) by now apply unsigned_type_ok.
  assert (Hvu : in_range (unsigned_type ty) v) by now apply to_unsigned_nonneg.
  unfold int_cast_a at 1. rewrite wrap_id by assumption.
  rewrite int_find_msb_pos_spec by assumption.
  replace (v =? 0) with false by lia. cbn [obind].
  set (m := Z.log2 v). pose proof (Z.log2_nonneg v) as Hm0.
  destruct (Z.log2_spec v ltac:(lia)) as [Hlo Hhi]. fold m in Hm0, Hlo, Hhi.
  rewrite Z.quot_div_nonneg by lia.
  assert (Hmn : m < nvb ty).
  { rewrite in_range_nvb in Hvt. apply (Z.pow_lt_mono_r_iff 2); lia. }
  set (k := m / 2 + 1).
  assert (Hk : 2 * k <= m + 2 /\ m + 1 <= 2 * k).
  { unfold k. pose proof (Z.div_mod m 2 ltac:(lia)). pose proof (Z.mod_pos_bound m 2 ltac:(lia)). lia. }
  assert (Hkn : k < nvb ty) by lia.
  unfold cshl. cbn [fst snd]. rewrite Hp.
  replace (0 <=? k) with true by lia.
  replace (k <? iwidth ty) with true by (unfold nvb in Hkn; destruct (isigned ty); lia).
  cbn [andb obind snd]. rewrite Z.shiftl_mul_pow2, Z.mul_1_l by lia.
  assert (0 < 2 ^ k) by (apply Z.pow_pos_nonneg; lia).
  assert (Hkr : in_range ty (2 ^ k)).
  { assert (2 ^ k < 2 ^ nvb ty) by (apply Z.pow_lt_mono_r; lia).
    rewrite in_range_nvb. destruct (isigned ty); lia. }
  rewrite !(wrap_id ty (2 ^ k)) by assumption.
  assert (Hsq : 2 ^ k * 2 ^ k <= 4 * v).
  { rewrite <- Z.pow_add_r by lia.
    assert (2 ^ (k + k) <= 2 ^ (m + 2)) by (apply Z.pow_le_mono_r; lia).
    rewrite (Z.pow_add_r 2 m 2) in H0 by lia. change (2 ^ 2) with 4 in H0. lia. }
  assert (Hsq2 : v < 2 ^ k * 2 ^ k).
  { rewrite <- Z.pow_add_r by lia. 
    assert (2 ^ Z.succ m <= 2 ^ (k + k)) by (apply Z.pow_le_mono_r; lia). lia. }
  pose proof (Z.sqrt_spec v ltac:(lia)) as Hs; cbv zeta in Hs.
  assert (Hsk : Z.sqrt v <= 2 ^ k) by nia.
  assert (Hsum : in_range ty (2 ^ k + v / 2 ^ k)).
  { assert (v / 2 ^ k < 2 ^ k) by (apply Z.div_lt_upper_bound; lia).
    assert (0 <= v / 2 ^ k) by (apply Z.div_pos; lia).
    assert (2 ^ k <= 2 ^ (nvb ty - 1)).
    { apply Z.pow_le_mono_r; [lia|]. lia. }
    assert (2 ^ nvb ty = 2 * 2 ^ (nvb ty - 1)).
    { rewrite <- Z.pow_succ_r by lia. f_equal. lia. }
    rewrite in_range_nvb. destruct (isigned ty); lia. }
  pose proof (int_sqrt_step ty v (2 ^ k) Ht Hp Hn Hvt ltac:(lia) Hkr H Hsum) as Hstep.
  destruct (cdiv (ty, v) (ty, 2 ^ k)) as [q|]; [|discriminate]. cbn [obind] in *.
  destruct (cadd (ty, 2 ^ k) q) as [s|]; [|discriminate]. cbn [obind] in *.
  rewrite Hstep. cbn [obind snd].
  assert (Hyr : in_range ty ((2 ^ k + v / 2 ^ k) / 2)).
  { assert (0 <= (2 ^ k + v / 2 ^ k) / 2 <= 2 ^ k + v / 2 ^ k).
    { pose proof (Z.div_pos v (2 ^ k)). split; [apply Z.div_pos; lia|].
      apply Z.div_le_upper_bound; lia. }
    pose proof (in_range_0 _ Ht). unfold in_range in *. lia. }
  rewrite wrap_id by assumption.
  rewrite (int_sqrt_loop_spec ty v) by
    (auto; try lia; rewrite Z2Nat.id by lia; nia).
  cbn [obind]. unfold int_cast_a. rewrite wrap_id; [reflexivity|assumption|].
  assert (0 <= Z.sqrt v <= v) by (pose proof (Z.sqrt_nonneg v); nia).
  pose proof (in_range_0 _ HT). unfold in_range in *. lia.
Qed.
