From Coq Require Import ZArith Lia Bool List ZifyBool.
From Verif Require Import CInt IntModel IntSpec IntProofs IntProofs3 IntProofs4.
From Verif Require Import ArrLib IntBitCopyModel IntBitCopySpec IntBitCopyProofs.
Import ListNotations.
Open Scope Z_scope.

Lemma promo_width T : ity_ok T -> 32 <= iwidth (promo T) /\ iwidth T <= iwidth (promo T).
Proof. unfold promo. destruct (Z.ltb_spec (iwidth T) 32); cbn; lia. Qed.

Lemma promo_signed T : isigned T = true -> isigned (promo T) = true.
Proof. unfold promo. destruct (iwidth T <? 32); auto. Qed.

Lemma part_type_ok T : ity_ok T -> ity_ok (part_type T).
Proof. intros H. pose proof (promo_width T H). unfold part_type, unsigned_type, ity_ok. cbn. lia. Qed.

Lemma part_type_width T : iwidth (part_type T) = iwidth (promo T).
Proof. reflexivity. Qed.

Lemma promo_id P : 32 <= iwidth P -> promo P = P.
Proof. intros H. unfold promo. now replace (iwidth P <? 32) with false by lia. Qed.

Lemma uac_same P : 32 <= iwidth P -> uac P P = P.
Proof.
  intros H. unfold uac. rewrite promo_id by assumption. rewrite Bool.eqb_reflx.
  now replace (iwidth P <=? iwidth P) with true by lia.
Qed.

Lemma uac_int_r P : 32 <= iwidth P -> isigned P = false -> uac P t_int = P.
Proof.
  intros H S0. unfold uac. rewrite promo_id by assumption. cbn. rewrite S0. cbn.
  destruct (Z.ltb_spec (iwidth P) 32); [lia|reflexivity].
Qed.

Lemma uac_int_l_signed P : 32 <= iwidth P -> isigned P = true -> uac t_int P = P.
Proof.
  intros H S0. unfold uac. rewrite (promo_id P) by assumption. cbn. rewrite S0. cbn.
  destruct (Z.leb_spec (iwidth P) 32) as [E|E]; [|reflexivity].
  destruct P as [w s]. cbn in *. subst s. unfold t_int. f_equal. lia.
Qed.

Lemma urange w v : in_range (ITy w false) v <-> 0 <= v < 2 ^ w.
Proof. unfold in_range, imin, imax. cbn. lia. Qed.

(* from_parts undoes the two's complement encoding *)
Lemma from_parts_spec T p : ity_ok T -> isigned T = true -> 0 <= p < 2 ^ iwidth (promo T) ->
  from_parts T [p] = Some (wrap T (signed_value (iwidth (promo T)) p)).
Proof.
  intros HT ST Hp. pose proof (promo_width T HT) as [W1 W2].
  pose proof (promo_signed T ST) as SP.
  set (W := iwidth (promo T)) in *.
  assert (HPT : promo T = ITy W true) by (destruct (promo T); cbn in *; congruence).
  assert (Hs : 2 ^ W = 2 * 2 ^ (W - 1)).
  { rewrite <- Z.pow_succ_r by lia. f_equal. lia. }
  assert (0 < 2 ^ (W - 1)) by (apply Z.pow_pos_nonneg; lia).
  unfold from_parts. cbn [nth_error obind]. rewrite ST. cbn [negb].
  set (P := part_type T). assert (HP : P = ITy W false) by reflexivity.
  assert (HPok : ity_ok P) by (unfold ity_ok; rewrite HP; cbn; lia).
  assert (E1 : cshl (P, 1) (iwidth P - 1) = Some (P, 2 ^ (W - 1))).
  { unfold cshl. rewrite HP. cbn [fst snd iwidth]. rewrite promo_id by (cbn; lia). cbn [iwidth].
    replace ((0 <=? W - 1) && (W - 1 <? W)) with true by lia.
    rewrite Z.shiftl_mul_pow2, Z.mul_1_l by lia. rewrite wrap_id; [reflexivity| |].
    - unfold ity_ok. cbn. lia.
    - apply urange. lia. }
  rewrite E1. cbn [obind].
  assert (E2 : ceq (cand (P, p) (P, 2 ^ (W - 1))) (t_int, 0) = (p <? 2 ^ (W - 1))).
  { unfold ceq, crel, cand. cbn [fst snd]. rewrite (uac_same P) by (rewrite HP; cbn; lia).
    cbn [fst snd]. rewrite uac_int_r by (rewrite HP; cbn; lia).
    rewrite (wrap_id P p), (wrap_id P (2 ^ (W - 1))), (wrap_id P 0); try assumption;
      try (rewrite HP; apply urange; lia).
    assert (Hb : Z.land p (2 ^ (W - 1)) = (if Z.testbit p (W - 1) then 2 ^ (W - 1) else 0)).
    { apply Z.bits_inj'. intros n Hn. rewrite Z.land_spec, Z.pow2_bits_eqb by lia.
      destruct (Z.eqb_spec (W - 1) n) as [<-|Hne].
      - destruct (Z.testbit p (W - 1)); [rewrite Z.pow2_bits_true by lia|rewrite Z.testbit_0_l]; reflexivity.
      - rewrite andb_false_r. destruct (Z.testbit p (W - 1)).
        + now rewrite Z.pow2_bits_false by lia.
        + now rewrite Z.testbit_0_l. }
    rewrite Hb.
    assert (Ht : Z.testbit p (W - 1) = (2 ^ (W - 1) <=? p)).
    { rewrite Z.testbit_odd, Z.shiftr_div_pow2 by lia.
      destruct (Z.leb_spec (2 ^ (W - 1)) p).
      - replace (p / 2 ^ (W - 1)) with 1; [reflexivity|].
        apply Z.div_unique with (p - 2 ^ (W - 1)); lia.
      - rewrite Z.div_small by lia. reflexivity. }
    rewrite Ht. destruct (Z.leb_spec (2 ^ (W - 1)) p).
    - assert (Hw : forall z, 0 <= z < 2 ^ W -> wrap P z = z)
        by (intros; apply wrap_id; [assumption|rewrite HP; apply urange; lia]).
      rewrite ?(Hw (2 ^ (W - 1))), ?(Hw 0), ?(Hw (2 ^ (W - 1))) by lia. lia.
    - assert (Hw : forall z, 0 <= z < 2 ^ W -> wrap P z = z)
        by (intros; apply wrap_id; [assumption|rewrite HP; apply urange; lia]).
      rewrite ?(Hw (2 ^ (W - 1))), ?(Hw 0), ?(Hw (2 ^ (W - 1))) by lia. lia. }
  rewrite E2. unfold signed_value. destruct (Z.ltb_spec p (2 ^ (W - 1))); [reflexivity|].
  assert (E3 : csub (P, wrap P (-1)) (P, p) = Some (P, 2 ^ W - 1 - p)).
  { unfold csub, cbin, norm. cbn [fst snd]. rewrite uac_same by (rewrite HP; cbn; lia).
    rewrite HP. cbn [isigned]. do 2 f_equal.
    replace (wrap (ITy W false) (-1)) with (2 ^ W - 1).
    2: { unfold wrap. cbn. replace (-1) with (2 ^ W - 1 + (-1) * 2 ^ W) by lia.
         rewrite Z.mod_add, Z.mod_small by lia. reflexivity. }
    assert (Hw : forall z, 0 <= z < 2 ^ W -> wrap (ITy W false) z = z)
      by (intros; apply wrap_id; [unfold ity_ok; cbn; lia|apply urange; lia]).
    rewrite (Hw (2 ^ W - 1)), (Hw p), Hw by lia. reflexivity. }
  rewrite E3. cbn [obind snd].
  rewrite HPT.
  assert (R : in_range (ITy W true) (2 ^ W - 1 - p)) by (unfold in_range, imin, imax; cbn; lia).
  assert (R1 : in_range (ITy W true) (-1)) by (unfold in_range, imin, imax; cbn; lia).
  assert (K : ity_ok (ITy W true)) by (unfold ity_ok; cbn; lia).
  rewrite (wrap_id _ _ K R).
  assert (E4 : csub (t_int, -1) (ITy W true, 2 ^ W - 1 - p) = Some (ITy W true, p - 2 ^ W)).
  { unfold csub, cbin, norm. cbn [fst snd]. rewrite uac_int_l_signed by (cbn; lia || reflexivity).
    rewrite (wrap_id _ _ K R), (wrap_id _ _ K R1). cbn [isigned].
    replace (-1 - (2 ^ W - 1 - p)) with (p - 2 ^ W) by lia.
    replace (in_rangeb (ITy W true) (p - 2 ^ W)) with true; [reflexivity|].
    symmetry. apply in_rangeb_spec. unfold in_range, imin, imax. cbn. lia. }
  rewrite E4. reflexivity.
Qed.

Lemma cast_from_twos_compl_a_spec T F v : ity_ok T -> ity_ok F ->
  isigned F = false -> isigned T = true -> 0 <= v < 2 ^ iwidth F ->
  cast_from_twos_compl_a T F v = Some (wrap T (signed_value (iwidth F) v)).
Proof.
  intros HT HF SF ST Hv. pose proof (promo_width F HF) as [W1 W2].
  pose proof (ity_ok_width _ HF) as W0.
  pose proof (promo_width T HT) as [X1 X2].
  unfold cast_from_twos_compl_a. rewrite SF, ST. cbn [negb andb].
  set (W := iwidth (promo F)) in *. set (PF := part_type F).
  assert (HP : PF = ITy W false) by reflexivity.
  assert (KP : ity_ok PF) by (rewrite HP; unfold ity_ok; cbn; lia).
  assert (2 ^ iwidth F <= 2 ^ W) by (apply Z.pow_le_mono_r; lia).
  unfold get_parts. cbn [nth_error obind]. fold PF.
  rewrite (wrap_id PF v) by (try assumption; rewrite HP; apply urange; lia).
  change (iwidth PF) with W. rewrite (Z.mod_small (iwidth F - 1)) by lia.
  replace (iwidth F - 1 + 1) with (iwidth F) by lia.
  rewrite int_mask_spec by (try assumption; rewrite HP; unfold nvb; cbn; lia). cbn [obind].
  set (n := iwidth F) in *.
  assert (Hs : 2 ^ n = 2 * 2 ^ (n - 1)).
  { rewrite <- Z.pow_succ_r by lia. f_equal. lia. }
  assert (0 < 2 ^ (n - 1)) by (apply Z.pow_pos_nonneg; lia).
  (* the extension mask *)
  assert (Eext : cnot (PF, 2 ^ n - 1) = (PF, 2 ^ W - 2 ^ n)).
  { unfold cnot. cbn [fst snd]. rewrite promo_id by (rewrite HP; cbn; lia). f_equal.
    rewrite HP. unfold wrap. cbn [isigned iwidth]. unfold Z.lnot. symmetry.
    apply Z.mod_unique with (-1); lia. }
  rewrite Eext.
  assert (Esb : cshr (PF, v) (n - 1) = Some (PF, if v <? 2 ^ (n - 1) then 0 else 1)).
  { unfold cshr. cbn [fst snd]. rewrite promo_id by (rewrite HP; cbn; lia).
    rewrite HP. cbn [iwidth]. replace ((0 <=? n - 1) && (n - 1 <? W)) with true by lia.
    rewrite Z.shiftr_div_pow2 by lia. do 2 f_equal.
    destruct (Z.ltb_spec v (2 ^ (n - 1))); [apply Z.div_small; lia|].
    symmetry. apply Z.div_unique with (v - 2 ^ (n - 1)); lia. }
  rewrite Esb. cbn [obind].
  set (sb := if v <? 2 ^ (n - 1) then 0 else 1).
  assert (Hsb : sb = 0 \/ sb = 1) by (unfold sb; destruct (v <? 2 ^ (n - 1)); auto).
  assert (Emul : cmul (PF, sb) (PF, 2 ^ W - 2 ^ n) = Some (PF, sb * (2 ^ W - 2 ^ n))).
  { unfold cmul, cbin, norm. cbn [fst snd]. rewrite uac_same by (rewrite HP; cbn; lia).
    rewrite HP. cbn [isigned]. do 2 f_equal.
    rewrite (wrap_id (ITy W false) sb), (wrap_id (ITy W false) (2 ^ W - 2 ^ n));
      try (rewrite <- HP; assumption); try (apply urange; lia).
    rewrite wrap_id; [reflexivity|rewrite <- HP; assumption|apply urange; destruct Hsb as [-> | ->]; lia]. }
  rewrite Emul. cbn [obind].
  assert (Ecor : wrap PF (snd (cor (PF, v) (PF, sb * (2 ^ W - 2 ^ n)))) = v + sb * (2 ^ W - 2 ^ n)).
  { unfold cor. cbn [fst snd]. rewrite uac_same by (rewrite HP; cbn; lia).
    rewrite (wrap_id PF v), (wrap_id PF (sb * (2 ^ W - 2 ^ n))); try assumption;
      try (rewrite HP; apply urange; destruct Hsb as [-> | ->]; lia).
    assert (El : Z.lor v (sb * (2 ^ W - 2 ^ n)) = v + sb * (2 ^ W - 2 ^ n)).
    { destruct Hsb as [-> | ->]; [now rewrite Z.mul_0_l, Z.lor_0_r, Z.add_0_r|].
      rewrite Z.mul_1_l. symmetry. rewrite <- Z.lxor_lor; [apply Z.add_nocarry_lxor|].
      all: apply Z.bits_inj'; intros k Hk; rewrite Z.land_spec, Z.testbit_0_l;
        replace (2 ^ W - 2 ^ n) with ((2 ^ (W - n) - 1) * 2 ^ n)
          by (rewrite Z.mul_sub_distr_r, <- Z.pow_add_r by lia; replace (W - n + n) with W by lia; lia);
        destruct (Z.ltb_spec k n);
        [rewrite Z.mul_pow2_bits_low by lia; apply andb_false_r
        |rewrite (testbit_small v n) by lia; reflexivity]. }
    cbn [snd]. rewrite El.
    assert (H1 : in_range PF (v + sb * (2 ^ W - 2 ^ n))).
    { rewrite HP. apply urange. destruct Hsb as [-> | ->]; lia. }
    rewrite (wrap_id PF _ KP H1). now apply wrap_id. }
  rewrite Ecor.
  set (q := v + sb * (2 ^ W - 2 ^ n)).
  assert (Hq : 0 <= q < 2 ^ W) by (unfold q; destruct Hsb as [-> | ->]; lia).
  destruct (int_bit_copy_spec W (iwidth (part_type T)) true ltac:(lia) ltac:(rewrite part_type_width; lia)
              [q] ltac:(constructor; [assumption|constructor]) ltac:(cbn; lia) [0] ltac:(cbn; lia))
    as (r & Er & Lr & Ok & Vr).
  fold W in Er. rewrite Er. cbn [obind].
  destruct r as [|x [|y r]]; cbn [length] in Lr; try discriminate.
  cbn [parts_value length] in Vr. rewrite Z.mul_0_r, Z.add_0_r in Vr.
  rewrite part_type_width in *. set (X := iwidth (promo T)) in *.
  change (Z.of_nat 1) with 1 in Vr. rewrite !Z.mul_1_r in Vr.
  rewrite Z.mul_0_r, Z.add_0_r in Vr.
  (* the value denoted by the parts *)
  assert (HsW : 2 ^ W = 2 * 2 ^ (W - 1)).
  { rewrite <- Z.pow_succ_r by lia. f_equal. lia. }
  assert (2 ^ (n - 1) <= 2 ^ (W - 1)) by (apply Z.pow_le_mono_r; lia).
  assert (Hval : pattern_value true W q = signed_value n v).
  { unfold pattern_value, signed_value, q, sb. cbn [andb].
    destruct (Z.eq_dec n W) as [En|En].
    - rewrite En in *. replace (2 ^ W - 2 ^ W) with 0 by lia. rewrite Z.mul_0_r, Z.add_0_r.
      destruct (Z.leb_spec (2 ^ (W - 1)) v), (Z.ltb_spec v (2 ^ (W - 1))); lia.
    - assert (2 ^ n <= 2 ^ (W - 1)) by (apply Z.pow_le_mono_r; lia).
      destruct (Z.ltb_spec v (2 ^ (n - 1))).
      + rewrite Z.mul_0_l, Z.add_0_r. destruct (Z.leb_spec (2 ^ (W - 1)) v); lia.
      + rewrite Z.mul_1_l. destruct (Z.leb_spec (2 ^ (W - 1)) (v + (2 ^ W - 2 ^ n))); lia. }
  rewrite Hval in Vr.
  assert (0 < 2 ^ X) by (apply Z.pow_pos_nonneg; lia).
  assert (Hx : 0 <= x < 2 ^ X) by (rewrite Vr; apply Z.mod_pos_bound; lia).
  rewrite from_parts_spec by assumption. f_equal. fold X.
  (* both sides are congruent modulo 2^X, hence modulo the width of T *)
  assert (Hc : exists k, signed_value X x = signed_value n v + k * 2 ^ X).
  { set (s := signed_value n v) in *. clearbody s. unfold signed_value. rewrite Vr, Z.mod_eq by lia.
    destruct (s - 2 ^ X * (s / 2 ^ X) <? 2 ^ (X - 1)).
    - exists (- (s / 2 ^ X)). lia.
    - exists (- (s / 2 ^ X) - 1). lia. }
  destruct Hc as (k & ->).
  unfold wrap. rewrite ST.
  assert (Hd : 2 ^ X = 2 ^ (X - iwidth T) * 2 ^ iwidth T).
  { rewrite <- Z.pow_add_r by (pose proof (ity_ok_width _ HT); lia). f_equal. lia. }
  rewrite Hd.
  replace (signed_value n v + k * (2 ^ (X - iwidth T) * 2 ^ iwidth T) + 2 ^ (iwidth T - 1))
    with (signed_value n v + 2 ^ (iwidth T - 1) + (k * 2 ^ (X - iwidth T)) * 2 ^ iwidth T) by lia.
  rewrite Z.mod_add; [reflexivity|]. apply Z.pow_nonzero; [lia|]. pose proof (ity_ok_width _ HT). lia.
Qed.
