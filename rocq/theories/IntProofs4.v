From Coq Require Import ZArith Lia Bool List ZifyBool.
From Verif Require Import CInt IntModel IntSpec IntProofs IntProofs2 IntProofs3.
Import ListNotations.
Open Scope Z_scope.

(* ------------------------------------------------------------------ *)
(* two's complement casts between unsigned types *)

Lemma land_pow2 x k : 0 <= k -> Z.land x (2 ^ k) = (x / 2 ^ k mod 2) * 2 ^ k.
Proof.
  intros Hk. apply Z.bits_inj'. intros n Hn. rewrite Z.land_spec, Z.pow2_bits_eqb by lia.
  rewrite <- Z.shiftl_mul_pow2 by lia. rewrite Z.shiftl_spec by lia.
  replace ((x / 2 ^ k) mod 2) with (Z.land (x / 2 ^ k) (Z.ones 1)) by (rewrite Z.land_ones by lia; reflexivity).
  rewrite Z.land_spec. rewrite <- Z.shiftr_div_pow2 by lia.
  destruct (Z.eqb_spec k n).
  - subst n. replace (k - k) with 0 by lia. rewrite Z.shiftr_spec by lia.
    rewrite Z.ones_spec_low by lia. now replace (0 + k) with k by lia.
  - rewrite andb_false_r. destruct (Z_lt_le_dec n k).
    + rewrite (Z.testbit_neg_r _ (n - k)) by lia. reflexivity.
    + rewrite Z.ones_spec_high by lia. now rewrite andb_false_r.
Qed.

Lemma land_high x a b : 0 <= a <= b -> 0 <= x < 2 ^ b ->
  Z.land x (2 ^ b - 2 ^ a) = x / 2 ^ a * 2 ^ a.
Proof.
  intros Hab Hx. replace (2 ^ b - 2 ^ a) with (Z.shiftl (Z.ones (b - a)) a).
  2:{ rewrite Z.shiftl_mul_pow2, Z.ones_equiv by lia. unfold Z.pred.
      rewrite Z.mul_add_distr_r, <- Z.pow_add_r by lia. replace (b - a + a) with b by lia. lia. }
  apply Z.bits_inj'. intros n Hn. rewrite Z.land_spec, Z.shiftl_spec by lia.
  rewrite <- (Z.shiftl_mul_pow2 _ a) by lia. rewrite Z.shiftl_spec by lia.
  rewrite <- Z.shiftr_div_pow2 by lia.
  destruct (Z_lt_le_dec n a).
  - rewrite !(Z.testbit_neg_r _ (n - a)) by lia. apply andb_false_r.
  - rewrite Z.shiftr_spec by lia. replace (n - a + a) with n by lia.
    destruct (Z_lt_le_dec n b).
    + rewrite Z.ones_spec_low by lia. apply andb_true_r.
    + rewrite Z.ones_spec_high by lia. rewrite andb_false_r.
      destruct (Z.eq_dec x 0) as [->|]; [now rewrite Z.testbit_0_l|].
      symmetry. apply Z.bits_above_log2; [lia|]. 
      apply Z.log2_lt_pow2; [lia|]. eapply Z.lt_le_trans; [apply Hx|].
      apply Z.pow_le_mono_r; lia.
Qed.

Lemma lor_disjoint_add m low w : 0 <= low < 2 ^ w -> 0 <= w ->
  Z.lor (m * 2 ^ w) low = m * 2 ^ w + low.
Proof.
  intros Hl Hw.
  assert (E : Z.land (m * 2 ^ w) low = 0).
  { apply Z.bits_inj'; intros n Hn. rewrite Z.land_spec, Z.bits_0.
    rewrite <- Z.shiftl_mul_pow2 by lia. rewrite Z.shiftl_spec by lia.
    destruct (Z_lt_le_dec n w).
    - rewrite Z.testbit_neg_r by lia. reflexivity.
    - destruct (Z.eq_dec low 0) as [->|]; [rewrite Z.testbit_0_l; apply andb_false_r|].
      rewrite (Z.bits_above_log2 low); [apply andb_false_r|lia|].
      apply Z.log2_lt_pow2; [lia|].
      eapply Z.lt_le_trans; [apply Hl|apply Z.pow_le_mono_r; lia]. }
  rewrite <- Z.lxor_lor, <- Z.add_nocarry_lxor; auto.
Qed.

(* sign extension *)
Lemma pow2_double w : 1 <= w -> 2 ^ w = 2 * 2 ^ (w - 1).
Proof. intros. rewrite <- Z.pow_succ_r by lia. f_equal. lia. Qed.

Lemma sign_bit_div w p : 1 <= w -> 0 <= p < 2 ^ w ->
  p / 2 ^ (w - 1) mod 2 = if p <? 2 ^ (w - 1) then 0 else 1.
Proof.
  intros Hw Hp. pose proof (pow2_double w Hw).
  assert (0 < 2 ^ (w - 1)) by (apply Z.pow_pos_nonneg; lia).
  destruct (Z.ltb_spec p (2 ^ (w - 1))).
  - rewrite Z.div_small by lia. reflexivity.
  - assert (p / 2 ^ (w - 1) = 1) as ->; [|reflexivity].
    symmetry. apply (Z.div_unique_pos _ _ _ (p - 2 ^ (w - 1))); lia.
Qed.

Lemma signed_value_mod w p : 1 <= w -> 0 <= p < 2 ^ w -> signed_value w p mod 2 ^ w = p.
Proof.
  intros Hw Hp. unfold signed_value. destruct (p <? _).
  - apply Z.mod_small; lia.
  - replace (p - 2 ^ w) with (p + (-1) * 2 ^ w) by lia. rewrite Z.mod_add by lia.
    apply Z.mod_small; lia.
Qed.

Lemma signed_value_range w p : 1 <= w -> 0 <= p < 2 ^ w ->
  - 2 ^ (w - 1) <= signed_value w p < 2 ^ (w - 1).
Proof.
  intros Hw Hp. pose proof (pow2_double w Hw). unfold signed_value.
  destruct (Z.ltb_spec p (2 ^ (w - 1))); lia.
Qed.

(* the pattern of width w of a signed value determines it *)
Lemma signed_value_of_mod w v : 1 <= w -> - 2 ^ (w - 1) <= v < 2 ^ (w - 1) ->
  signed_value w (v mod 2 ^ w) = v.
Proof.
  intros Hw Hv. pose proof (pow2_double w Hw). unfold signed_value.
  destruct (Z_lt_le_dec v 0).
  - replace (v mod 2 ^ w) with (v + 2 ^ w).
    2:{ rewrite <- (Z.mod_add v 1) by lia. rewrite Z.mul_1_l. symmetry. apply Z.mod_small. lia. }
    destruct (Z.ltb_spec (v + 2 ^ w) (2 ^ (w - 1))); lia.
  - rewrite Z.mod_small by lia. destruct (Z.ltb_spec v (2 ^ (w - 1))); lia.
Qed.

Lemma uac_promo_int t : ity_ok t -> uac (promo t) t_int = promo t.
Proof.
  intros HT. unfold uac. rewrite promo_idem. change (promo t_int) with t_int. cbn [isigned t_int].
  change (iwidth t_int) with 32. pose proof (promo_width t).
  destruct (isigned (promo t)) eqn:S; cbn [Bool.eqb].
  - replace (32 <=? iwidth (promo t)) with true by lia. reflexivity.
  - replace (iwidth (promo t) <? 32) with false by lia. reflexivity.
Qed.

Lemma cand_nonneg t x y : ity_ok t -> promo t = t -> in_range t x -> in_range t y -> 0 <= x ->
  cand (t, x) (t, y) = (t, Z.land x y).
Proof.
  intros Ht Hp Hx Hy H0. unfold cand. cbn [fst snd]. rewrite uac_same, Hp.
  rewrite (wrap_id t x), (wrap_id t y) by assumption.
  rewrite wrap_id; [reflexivity|assumption|].
  assert (0 <= Z.land x y) by (apply Z.land_nonneg; lia).
  pose proof (land_le_l x y H0). pose proof (in_range_0 t Ht). unfold in_range in *. lia.
Qed.

Lemma pow2_in_range t k : ity_ok t -> 0 <= k < nvb t -> in_range t (2 ^ k).
Proof.
  intros Ht Hk. rewrite in_range_nvb.
  assert (2 ^ k < 2 ^ nvb t) by (apply Z.pow_lt_mono_r; lia).
  assert (0 < 2 ^ k) by (apply Z.pow_pos_nonneg; lia).
  destruct (isigned t); lia.
Qed.

(* ~(((from & 1 << (w-1)) << 1) - 1) in the promoted type: the sign extension
   mask, as a congruence modulo 2^width and, for signed promoted types, exactly *)
Lemma ext_mask p from w : ity_ok p -> promo p = p -> 1 <= w < nvb p -> 
  in_range p from -> 0 <= from ->
  exists d,
    (let* one := cshl (p, 1) (w - 1) in
     let* sh := cshl (cand (p, from) one) 1 in
     csub sh (t_int, 1)) = Some (p, d) /\
    snd (cnot (p, d)) = wrap p (- ((from / 2 ^ (w - 1) mod 2) * 2 ^ w)) /\
    in_range p d.
Proof.
  intros Hp Hpp Hw Hf Hf0. unfold cshl. cbn [fst snd]. rewrite Hpp.
  assert (nvb p <= iwidth p) by (unfold nvb; destruct (isigned p); lia).
  replace (0 <=? w - 1) with true by lia. replace (w - 1 <? iwidth p) with true by lia.
  cbn [andb obind snd]. rewrite Z.shiftl_mul_pow2, Z.mul_1_l by lia.
  rewrite wrap_id by (auto; apply pow2_in_range; auto; lia).
  rewrite cand_nonneg by (auto; apply pow2_in_range; auto; lia).
  cbn [fst snd]. rewrite Hpp.
  replace (0 <=? 1) with true by lia. replace (1 <? iwidth p) with true by lia.
  cbn [andb obind]. rewrite land_pow2 by lia. rewrite Z.shiftl_mul_pow2 by lia.
  set (b := from / 2 ^ (w - 1) mod 2).
  assert (Hb : b = 0 \/ b = 1).
  { unfold b. pose proof (Z.mod_pos_bound (from / 2 ^ (w - 1)) 2). lia. }
  assert (E : b * 2 ^ (w - 1) * 2 ^ 1 = b * 2 ^ w).
  { rewrite (pow2_double w) by lia. change (2 ^ 1) with 2. ring. }
  rewrite E.
  assert (HbR : in_range p (b * 2 ^ w)).
  { destruct Hb as [-> | ->]; [now apply in_range_0|]. rewrite Z.mul_1_l.
    apply pow2_in_range; auto; lia. }
  rewrite wrap_id by assumption. unfold csub, cbin. cbn [fst snd].
  assert (Hu : uac p t_int = p) by (rewrite <- Hpp; now apply uac_promo_int).
  rewrite Hu. rewrite (wrap_id p (b * 2 ^ w)), (wrap_id p 1) by auto using in_range_1.
  unfold norm. destruct (isigned p) eqn:S.
  - assert (Hd : in_range p (b * 2 ^ w - 1)).
    { assert (0 < 2 ^ w) by (apply Z.pow_pos_nonneg; lia).
      pose proof (pow_nvb_pos p Hp).
      rewrite in_range_nvb in *. rewrite S in *. destruct Hb as [-> | ->]; lia. }
    pose proof (proj2 (in_rangeb_spec p _) Hd) as Hd'. rewrite Hd'.
    exists (b * 2 ^ w - 1). split; [reflexivity|]. split; [|assumption].
    unfold cnot. cbn [fst snd]. rewrite Hpp, lnot_eq. f_equal. lia.
  - exists (wrap p (b * 2 ^ w - 1)). split; [reflexivity|]. split; [|now apply wrap_range].
    unfold cnot. cbn [fst snd]. rewrite Hpp, lnot_eq.
    destruct (wrap_cong p (b * 2 ^ w - 1) Hp) as [k Hk]. rewrite Hk.
    apply (wrap_of_cong p _ _ (-k)); [assumption|]. ring.
Qed.

Lemma ext_mask_bind {A} p from w (K : tv -> option A) : 
  (let* one := cshl (p, 1) (w - 1) in
   let sign_bit := cand (p, from) one in
   let* sh := cshl sign_bit 1 in
   let* d := csub sh (t_int, 1) in K d)
  = obind (let* one := cshl (p, 1) (w - 1) in
     let* sh := cshl (cand (p, from) one) 1 in
     csub sh (t_int, 1)) K.
Proof.
  destruct (cshl (p, 1) (w - 1)); [|reflexivity]. cbn [obind].
  destruct (cshl (cand (p, from) t) 1); [|reflexivity]. cbn [obind].
  destruct (csub t0 (t_int, 1)); reflexivity.
Qed.

(* value of a bit pattern after sign extension *)
Lemma twos_compl_sign_extend_spec T v w : ity_ok T -> isigned T = false ->
  1 <= w <= iwidth T -> 0 <= v < 2 ^ w ->
  twos_compl_sign_extend T v w = Some (signed_value w v mod 2 ^ iwidth T).
Proof.
  intros HT ST Hw Hv. unfold twos_compl_sign_extend.
  replace (0 <? w) with true by lia. cbn [negb].
  assert (2 ^ w <= 2 ^ iwidth T) by (apply Z.pow_le_mono_r; lia).
  destruct (Z.ltb_spec w (iwidth T)).
  - rewrite ext_mask_bind.
    pose proof (promo_ok T HT) as HP. pose proof (promo_idem T) as HPP.
    assert (HvT : in_range T v) by (rewrite unsigned_range by assumption; lia).
    pose proof (in_range_promo T v HT HvT) as HvP.
    assert (Hwn : w < nvb (promo T)) by (pose proof (promo_nvb_ge T); unfold nvb in *; rewrite ST in *; lia).
    destruct (ext_mask (promo T) v w HP HPP ltac:(lia) HvP ltac:(lia)) as (d & E1 & E2 & E3).
    rewrite E1. cbn [obind]. f_equal.
    unfold cor. unfold cnot in *. cbn [fst snd] in *. rewrite !HPP in *. rewrite uac_same, HPP.
    rewrite E2.
    rewrite (wrap_id (promo T) (wrap _ _)) by (auto using wrap_range).
    rewrite (wrap_id (promo T) v) by assumption.
    rewrite wrap_wrap by auto using promo_width_ge.
    rewrite sign_bit_div by lia.
    assert (HwT : forall x, wrap T x = x mod 2 ^ iwidth T) by (intros; unfold wrap; now rewrite ST).
    unfold signed_value. destruct (Z.ltb_spec v (2 ^ (w - 1))).
    + replace (- (0 * 2 ^ w)) with 0 by lia. rewrite (wrap_id _ 0) by auto using in_range_0.
      rewrite Z.lor_0_l. rewrite HwT. reflexivity.
    + rewrite Z.mul_1_l.
      destruct (wrap_cong (promo T) (- 2 ^ w) HP) as [k Hk]. rewrite Hk.
      pose proof (promo_width_ge T).
      assert (Ep : - 2 ^ w + k * 2 ^ iwidth (promo T) = (k * 2 ^ (iwidth (promo T) - w) - 1) * 2 ^ w).
      { rewrite Z.mul_sub_distr_r, <- Z.mul_assoc, <- Z.pow_add_r by lia.
        replace (iwidth (promo T) - w + w) with (iwidth (promo T)) by lia. lia. }
      rewrite Ep, lor_disjoint_add by lia. rewrite <- Ep, HwT.
      destruct (pow2_divides (iwidth T) (iwidth (promo T))) as [m Hm]; [lia|].
      rewrite Hm. replace (- 2 ^ w + k * (m * 2 ^ iwidth T) + v)
        with (v - 2 ^ w + (k * m) * 2 ^ iwidth T) by ring.
      apply Z.mod_add. lia.
  - assert (w = iwidth T) by lia. subst w. f_equal. symmetry. now apply signed_value_mod.
Qed.

Definition fits_signed (w v : Z) : bool := (- 2 ^ (w - 1) <=? v) && (v <? 2 ^ (w - 1)).

(* narrowing between unsigned types, source at least as wide as int *)
Lemma narrow_wide_spec T F from to : ity_ok T -> ity_ok F ->
  isigned T = false -> isigned F = false -> iwidth T < iwidth F -> 32 <= iwidth F ->
  in_range F from ->
  try_twos_compl_cast_uu T F from to =
    if fits_signed (iwidth T) (signed_value (iwidth F) from)
    then Some (true, signed_value (iwidth F) from mod 2 ^ iwidth T) else Some (false, to).
Proof.
  intros HT HF ST SF Hw H32 Hf. unfold try_twos_compl_cast_uu.
  replace (iwidth F <=? iwidth T) with false by lia.
  pose proof (ity_ok_width _ HT) as HwT.
  rewrite promo_wide by assumption.
  assert (HPF : promo F = F) by now apply promo_wide.
  rewrite ext_mask_bind.
  pose proof (in_range_unsigned_nonneg F from SF Hf) as Hf0.
  assert (HnF : nvb F = iwidth F) by (unfold nvb; now rewrite SF).
  destruct (ext_mask F from (iwidth T) HF HPF ltac:(lia) Hf Hf0) as (d & E1 & E2 & E3).
  rewrite E1. cbn [obind].
  set (wt := iwidth T) in *. set (wf := iwidth F) in *.
  assert (Hfr : 0 <= from < 2 ^ wf) by (apply unsigned_range in Hf; auto).
  assert (Hwr : forall x, wrap F x = x mod 2 ^ wf) by (intros; unfold wrap; now rewrite SF).
  assert (HwrT : forall x, wrap T x = x mod 2 ^ wt) by (intros; unfold wrap; now rewrite ST).
  assert (Hpt : 0 < 2 ^ wt) by (apply Z.pow_pos_nonneg; lia).
  assert (Hlt : 2 ^ wt < 2 ^ wf) by (apply Z.pow_lt_mono_r; lia).
  (* the mask of high bits *)
  assert (Hm1 : cshl (F, wrap F (-1)) wt = Some (F, 2 ^ wf - 2 ^ wt)).
  { unfold cshl. cbn [fst snd]. rewrite HPF. replace (0 <=? wt) with true by lia.
    fold wf. replace (wt <? wf) with true by lia. cbn [andb]. f_equal. f_equal.
    rewrite Z.shiftl_mul_pow2 by lia.
    replace (wrap F (-1)) with (2 ^ wf - 1).
    2:{ rewrite Hwr. rewrite <- (Z.mod_add (-1) 1) by lia. rewrite Z.mod_small by lia. lia. }
    rewrite Hwr. replace ((2 ^ wf - 1) * 2 ^ wt) with (2 ^ wf - 2 ^ wt + (2 ^ wt - 1) * 2 ^ wf) by ring.
    rewrite Z.mod_add by lia. apply Z.mod_small. lia. }
  rewrite Hm1. cbn [obind].
  rewrite cand_nonneg by (auto; rewrite unsigned_range by assumption; fold wf; lia).
  rewrite land_high by lia.
  assert (E2' : cnot (F, d) = (F, wrap F (- (from / 2 ^ (wt - 1) mod 2 * 2 ^ wt)))).
  { rewrite <- E2. unfold cnot. cbn [fst snd]. rewrite HPF. reflexivity. }
  rewrite E2'. unfold ceq.
  assert (Hhr : in_range F (from / 2 ^ wt * 2 ^ wt)).
  { rewrite unsigned_range by assumption. fold wf.
    assert (0 <= from / 2 ^ wt) by (apply Z.div_pos; lia).
    pose proof (Z.mul_div_le from (2 ^ wt)). nia. }
  rewrite crel_same by auto using wrap_range.
  rewrite HwrT.
  (* decompose *)
  set (h := from / 2 ^ wt). set (low := from mod 2 ^ wt).
  assert (Hdm : from = h * 2 ^ wt + low).
  { unfold h, low. pose proof (Z.div_mod from (2 ^ wt)). lia. }
  assert (Hlow : 0 <= low < 2 ^ wt) by (apply Z.mod_pos_bound; lia).
  assert (Hh : 0 <= h) by (apply Z.div_pos; lia).
  assert (Hwf2 : 2 ^ wf = 2 ^ (wf - wt) * 2 ^ wt).
  { rewrite <- Z.pow_add_r by lia. f_equal. lia. }
  assert (Hhlt : h < 2 ^ (wf - wt)) by nia.
  pose proof (pow2_double wt HwT) as Hd2. pose proof (pow2_double wf ltac:(lia)) as Hd3.
  assert (Hq2 : 0 < 2 ^ (wt - 1)) by (apply Z.pow_pos_nonneg; lia).
  assert (Hbit : from / 2 ^ (wt - 1) mod 2 = if low <? 2 ^ (wt - 1) then 0 else 1).
  { rewrite <- (sign_bit_div wt low HwT Hlow).
    rewrite Hdm, Hd2. replace (h * (2 * 2 ^ (wt - 1)) + low) with (low + h * 2 * 2 ^ (wt - 1)) by ring.
    rewrite Z.div_add by lia. rewrite Z.add_comm, Z.add_comm. 
    rewrite Z.mod_add by lia. reflexivity. }
  rewrite Hbit.
  assert (Hdp : 2 ^ (wf - wt) = 2 * 2 ^ (wf - wt - 1)) by (apply pow2_double; lia).
  assert (Hq3 : 0 < 2 ^ (wf - wt - 1)) by (apply Z.pow_pos_nonneg; lia).
  assert (Hwfm : 2 ^ (wf - 1) = 2 ^ (wf - wt - 1) * 2 ^ wt).
  { rewrite <- Z.pow_add_r by lia. f_equal. lia. }
  unfold fits_signed, signed_value.
  destruct (Z.ltb_spec low (2 ^ (wt - 1))) as [Hl|Hl].
  - replace (- (0 * 2 ^ wt)) with 0 by lia. rewrite Hwr, Z.mod_0_l by lia.
    destruct (Z.eqb_spec (h * 2 ^ wt) 0) as [Hz|Hz].
    + assert (h = 0) by nia. rewrite H in Hdm. 
      assert (from = low) by lia.
      replace (from <? 2 ^ (wf - 1)) with true by nia.
      replace (- 2 ^ (wt - 1) <=? from) with true by lia.
      replace (from <? 2 ^ (wt - 1)) with true by lia. cbn [andb].
      reflexivity.
    + assert (1 <= h) by nia.
      destruct (Z.ltb_spec from (2 ^ (wf - 1))).
      * replace (from <? 2 ^ (wt - 1)) with false by nia. now rewrite andb_false_r.
      * replace (- 2 ^ (wt - 1) <=? from - 2 ^ wf) with false; [reflexivity|]. nia.
  - rewrite Z.mul_1_l. rewrite Hwr.
    replace (- 2 ^ wt mod 2 ^ wf) with (2 ^ wf - 2 ^ wt).
    2:{ rewrite <- (Z.mod_add (- 2 ^ wt) 1) by lia. rewrite Z.mod_small by lia. lia. }
    destruct (Z.eqb_spec (h * 2 ^ wt) (2 ^ wf - 2 ^ wt)) as [Hz|Hz].
    + assert (Hfe : from = 2 ^ wf - 2 ^ wt + low) by lia.
      replace (from <? 2 ^ (wf - 1)) with false by nia.
      replace (- 2 ^ (wt - 1) <=? from - 2 ^ wf) with true by lia.
      replace (from - 2 ^ wf <? 2 ^ (wt - 1)) with true by lia. cbn [andb].
      f_equal. f_equal. rewrite Hwf2.
      replace (from - 2 ^ (wf - wt) * 2 ^ wt) with (from + (- 2 ^ (wf - wt)) * 2 ^ wt) by ring.
      rewrite Z.mod_add by lia. reflexivity.
    + assert (h <= 2 ^ (wf - wt) - 2) by nia.
      destruct (Z.ltb_spec from (2 ^ (wf - 1))).
      * replace (from <? 2 ^ (wt - 1)) with false; [now rewrite andb_false_r|]. nia.
      * replace (- 2 ^ (wt - 1) <=? from - 2 ^ wf) with false; [reflexivity|]. nia.
Qed.

(* narrowing from a type narrower than int: only non-negative values pass *)
Lemma narrow_narrow_spec T F from to : ity_ok T -> ity_ok F ->
  isigned T = false -> isigned F = false -> iwidth T < iwidth F < 32 ->
  in_range F from ->
  try_twos_compl_cast_uu T F from to =
    if from <? 2 ^ (iwidth T - 1)
    then Some (true, from) else Some (false, to).
Proof.
  intros HT HF ST SF Hw Hf. unfold try_twos_compl_cast_uu.
  replace (iwidth F <=? iwidth T) with false by lia.
  pose proof (ity_ok_width _ HT) as HwT.
  assert (HPF : promo F = t_int) by (unfold promo; now replace (iwidth F <? 32) with true by lia).
  rewrite HPF. rewrite ext_mask_bind.
  pose proof (in_range_unsigned_nonneg F from SF Hf) as Hf0.
  pose proof (in_range_promo F from HF Hf) as HfI. rewrite HPF in HfI.
  destruct (ext_mask t_int from (iwidth T) t_int_ok eq_refl) as (d & E1 & E2 & E3); auto.
  { unfold nvb, t_int; cbn. lia. }
  rewrite E1. cbn [obind].
  set (wt := iwidth T) in *. set (wf := iwidth F) in *.
  assert (Hfr : 0 <= from < 2 ^ wf) by (apply unsigned_range in Hf; auto).
  assert (Hpt : 0 < 2 ^ wt) by (apply Z.pow_pos_nonneg; lia).
  assert (Hlt : 2 ^ wt < 2 ^ wf) by (apply Z.pow_lt_mono_r; lia).
  assert (Hm1 : exists m, cshl (t_int, wrap F (-1)) wt = Some (t_int, m) /\ in_range t_int m).
  { unfold cshl. cbn [fst snd]. change (promo t_int) with t_int. change (iwidth t_int) with 32.
    replace (0 <=? wt) with true by lia. replace (wt <? 32) with true by lia. cbn [andb].
    eexists. split; [reflexivity|]. apply wrap_range, t_int_ok. }
  assert (Hm2 : 2 * wf <= 31 \/ 31 < 2 * wf) by lia.
  assert (Hmask : forall m, cshl (t_int, wrap F (-1)) wt = Some (t_int, m) ->
            Z.land from m = from / 2 ^ wt * 2 ^ wt).
  { intros m Hm. unfold cshl in Hm. cbn [fst snd] in Hm. change (promo t_int) with t_int in Hm.
    change (iwidth t_int) with 32 in Hm.
    replace (0 <=? wt) with true in Hm by lia. replace (wt <? 32) with true in Hm by lia.
    cbn [andb] in Hm. injection Hm as <-.
    assert (HF1 : wrap F (-1) = 2 ^ wf - 1).
    { unfold wrap. rewrite SF. fold wf. rewrite <- (Z.mod_add (-1) 1) by lia.
      rewrite Z.mod_small by lia. lia. }
    rewrite HF1, Z.shiftl_mul_pow2 by lia.
    (* only the low wf bits of the mask matter, since from < 2^wf <= 2^31 *)
    assert (Hlow : forall x, Z.land from x = Z.land from (x mod 2 ^ wf)).
    { intros x. rewrite <- Z.land_ones by lia. rewrite (Z.land_comm x), Z.land_assoc.
      rewrite Z.land_ones by lia. now rewrite Z.mod_small by lia. }
    rewrite Hlow. rewrite <- (land_high from wt wf) by lia. f_equal.
    destruct (wrap_cong t_int ((2 ^ wf - 1) * 2 ^ wt) t_int_ok) as [k Hk]. rewrite Hk.
    change (iwidth t_int) with 32.
    assert (E32 : 2 ^ 32 = 2 ^ (32 - wf) * 2 ^ wf).
    { rewrite <- Z.pow_add_r by lia. f_equal. lia. }
    rewrite E32.
    replace ((2 ^ wf - 1) * 2 ^ wt + k * (2 ^ (32 - wf) * 2 ^ wf))
      with (2 ^ wf - 2 ^ wt + (2 ^ wt - 1 + k * 2 ^ (32 - wf)) * 2 ^ wf) by ring.
    rewrite Z.mod_add by lia. apply Z.mod_small. lia. }
  destruct Hm1 as (m & Hm & Hmr). rewrite Hm. cbn [obind].
  rewrite cand_nonneg by (auto using t_int_ok). rewrite (Hmask m Hm).
  assert (E2' : cnot (t_int, d) = (t_int, wrap t_int (- (from / 2 ^ (wt - 1) mod 2 * 2 ^ wt)))).
  { rewrite <- E2. reflexivity. }
  rewrite E2'. unfold ceq.
  assert (H31 : 2 ^ wf <= 2 ^ 31) by (apply Z.pow_le_mono_r; lia).
  assert (HI : forall x, in_range t_int x <-> - 2 ^ 31 <= x < 2 ^ 31).
  { intros x. rewrite in_range_nvb. unfold nvb, t_int; cbn [isigned iwidth].
    change (32 - 1) with 31. lia. }
  assert (0 <= from / 2 ^ wt) by (apply Z.div_pos; lia).
  pose proof (Z.mul_div_le from (2 ^ wt) ltac:(lia)).
  rewrite crel_same by (auto using wrap_range, t_int_ok; rewrite HI; nia).
  set (h := from / 2 ^ wt) in *. set (low := from mod 2 ^ wt).
  assert (Hdm : from = h * 2 ^ wt + low).
  { unfold h, low. pose proof (Z.div_mod from (2 ^ wt)). lia. }
  assert (Hlow : 0 <= low < 2 ^ wt) by (apply Z.mod_pos_bound; lia).
  pose proof (pow2_double wt HwT) as Hd2.
  assert (Hq2 : 0 < 2 ^ (wt - 1)) by (apply Z.pow_pos_nonneg; lia).
  assert (Hbit : from / 2 ^ (wt - 1) mod 2 = if low <? 2 ^ (wt - 1) then 0 else 1).
  { rewrite <- (sign_bit_div wt low HwT Hlow).
    rewrite Hdm, Hd2. replace (h * (2 * 2 ^ (wt - 1)) + low) with (low + h * 2 * 2 ^ (wt - 1)) by ring.
    rewrite Z.div_add by lia. rewrite Z.mod_add by lia. reflexivity. }
  rewrite Hbit.
  assert (HwrT : forall x, wrap T x = x mod 2 ^ wt) by (intros; unfold wrap; now rewrite ST).
  rewrite HwrT.
  destruct (Z.ltb_spec low (2 ^ (wt - 1))) as [Hl|Hl].
  - replace (- (0 * 2 ^ wt)) with 0 by lia. rewrite wrap_id by (auto using t_int_ok; rewrite HI; lia).
    destruct (Z.eqb_spec (h * 2 ^ wt) 0) as [Hz|Hz].
    + assert (h = 0) as Hh0 by nia. rewrite Hh0 in Hdm. assert (from = low) by lia.
      replace (from <? 2 ^ (wt - 1)) with true by lia. f_equal. f_equal. fold low. lia.
    + assert (1 <= h) as Hh1 by nia. assert (2 ^ wt <= from) by nia.
      replace (from <? 2 ^ (wt - 1)) with false by lia. reflexivity.
  - rewrite Z.mul_1_l. rewrite wrap_id by (auto using t_int_ok; rewrite HI; lia).
    replace (h * 2 ^ wt =? - 2 ^ wt) with false by nia.
    replace (from <? 2 ^ (wt - 1)) with false by nia. reflexivity.
Qed.

(* widening *)
Lemma widen_spec T F from to : ity_ok T -> ity_ok F ->
  isigned T = false -> isigned F = false -> iwidth F <= iwidth T ->
  in_range F from ->
  try_twos_compl_cast_uu T F from to =
    Some (true, signed_value (iwidth F) from mod 2 ^ iwidth T).
Proof.
  intros HT HF ST SF Hw Hf. unfold try_twos_compl_cast_uu.
  replace (iwidth F <=? iwidth T) with true by lia.
  pose proof (ity_ok_width _ HF).
  assert (HfT : in_range T from).
  { apply (in_range_nonneg F); auto. - unfold nvb; rewrite ST, SF; lia.
    - eapply in_range_unsigned_nonneg; eauto. }
  rewrite wrap_id by assumption.
  rewrite twos_compl_sign_extend_spec; [reflexivity|assumption|assumption|lia|].
  now apply unsigned_range.
Qed.
