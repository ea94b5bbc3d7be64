(* Lemmas about the casts to and from two's complement representation. *)

From Coq Require Import ZArith Bool List Lia.
From Verif Require Import CInt IntSpec IntModel IntProofs IntProofs4 TwosCastModel.
Import ListNotations.
Open Scope Z_scope.

Lemma nvb_promo t : ity_ok t -> nvb t <= nvb (promo t).
Proof. intros H. apply promo_nvb_ge. Qed.

Lemma nvb_uac t u : ity_ok t -> ity_ok u -> nvb t <= nvb (uac t u) /\ nvb u <= nvb (uac t u).
Proof.
  intros Ht Hu. pose proof (promo_nvb_ge t) as P1. pose proof (promo_nvb_ge u) as P2.
  unfold uac. set (p := promo t) in *. set (q := promo u) in *.
  enough (nvb p <= nvb (if Bool.eqb (isigned p) (isigned q) then if iwidth q <=? iwidth p then p else q
    else if isigned p then if iwidth q <? iwidth p then p else q
    else if iwidth p <? iwidth q then q else p) /\
   nvb q <= nvb (if Bool.eqb (isigned p) (isigned q) then if iwidth q <=? iwidth p then p else q
    else if isigned p then if iwidth q <? iwidth p then p else q
    else if iwidth p <? iwidth q then q else p)) by lia.
  unfold nvb. destruct (isigned p) eqn:E1, (isigned q) eqn:E2; cbn [Bool.eqb].
  - destruct (Z.leb_spec (iwidth q) (iwidth p)); rewrite ?E1, ?E2; lia.
  - destruct (Z.ltb_spec (iwidth q) (iwidth p)); rewrite ?E1, ?E2; lia.
  - destruct (Z.ltb_spec (iwidth p) (iwidth q)); rewrite ?E1, ?E2; lia.
  - destruct (Z.leb_spec (iwidth q) (iwidth p)); rewrite ?E1, ?E2; lia.
Qed.

Lemma crel_nonneg f A B x y : ity_ok A -> ity_ok B -> in_range A x -> in_range B y ->
  0 <= x -> 0 <= y -> crel f (A, x) (B, y) = f x y.
Proof.
  intros HA HB Hx Hy Hx0 Hy0. unfold crel. cbn [fst snd].
  pose proof (uac_ok A B HA HB) as HU. destruct (nvb_uac A B HA HB) as (N1 & N2).
  rewrite !wrap_id; try assumption; [reflexivity| |].
  - apply (in_range_nonneg B); assumption.
  - apply (in_range_nonneg A); assumption.
Qed.

Lemma promote_id t v : ity_ok t -> in_range t v -> promote t v = (promo t, v).
Proof.
  intros Ht Hv. unfold promote. rewrite wrap_id; auto using promo_ok, in_range_promo.
Qed.

Lemma unsigned_type_ok t : ity_ok t -> ity_ok (unsigned_type t).
Proof. intros H. apply ity_ok_width in H. unfold ity_ok, unsigned_type. cbn. lia. Qed.

Lemma to_unsigned_id t v : ity_ok t -> in_range t v -> 0 <= v ->
  to_unsigned (t, v) = (unsigned_type t, v) /\ in_range (unsigned_type t) v.
Proof.
  intros Ht Hv H0. pose proof (to_unsigned_nonneg t v Ht Hv H0) as R.
  split; [|assumption]. unfold to_unsigned. cbn [fst snd].
  rewrite wrap_id; auto using unsigned_type_ok.
Qed.

Lemma promo_signed t : isigned t = true -> isigned (promo t) = true.
Proof. intros H. unfold promo. destruct (iwidth t <? 32); [reflexivity|assumption]. Qed.

Lemma uac_int_signed t : isigned t = true -> uac t_int t = promo t.
Proof.
  intros H. unfold uac. change (promo t_int) with t_int. rewrite (promo_signed t H).
  cbn [t_int isigned Bool.eqb]. change (iwidth t_int) with 32. change (iwidth (ITy 32 true)) with 32.
  pose proof (promo_width t). destruct (Z.leb_spec (iwidth (promo t)) 32) as [E|E]; [|reflexivity].
  destruct (promo t) as [w s] eqn:Ep. cbn [iwidth] in *. assert (w = 32) by lia. subst w.
  pose proof (promo_signed t H) as Hs. rewrite Ep in Hs. cbn in Hs. subst s. reflexivity.
Qed.

(* -1 - v for a signed v *)
Lemma csub_minus_one t v : ity_ok t -> isigned t = true -> in_range (promo t) v ->
  csub (t_int, -1) (t, v) = Some (promo t, -1 - v).
Proof.
  intros Ht Hs Hv. unfold csub, cbin. cbn [fst snd]. rewrite uac_int_signed by assumption.
  pose proof (promo_ok t Ht) as Hp. pose proof (promo_signed t Hs) as Sp.
  assert (R : in_range (promo t) (-1)).
  { unfold in_range, imin, imax in *. rewrite Sp in *. pose proof (promo_width t).
    assert (0 < 2 ^ (iwidth (promo t) - 1)) by (apply Z.pow_pos_nonneg; lia). lia. }
  rewrite !wrap_id by assumption. apply norm_in; [|assumption].
  unfold in_range, imin, imax in *. rewrite Sp in *. lia.
Qed.

Lemma csub_promo t a b : ity_ok t -> in_range (promo t) a -> in_range (promo t) b ->
  in_range (promo t) (a - b) -> csub (promo t, a) (promo t, b) = Some (promo t, a - b).
Proof.
  intros Ht Ha Hb Hc. unfold csub, cbin. cbn [fst snd]. rewrite uac_same, promo_idem.
  pose proof (promo_ok t Ht). rewrite !wrap_id by assumption. now apply norm_in.
Qed.

Lemma imax_nonneg t : ity_ok t -> 0 <= imax t.
Proof. intros H. pose proof (in_range_0 t H). unfold in_range in *. lia. Qed.

(* the largest value whose two's complement has the width of an unsigned type *)
Lemma twos_max T : ity_ok T -> isigned T = false ->
  cshr (promote T (imax T)) 1 = Some (promo T, 2 ^ (iwidth T - 1) - 1) /\
  in_range (promo T) (2 ^ (iwidth T - 1) - 1) /\ 0 <= 2 ^ (iwidth T - 1) - 1.
Proof.
  intros HT ST. pose proof (ity_ok_width T HT) as Hw. pose proof (pow2_double (iwidth T) Hw) as D.
  assert (P : 0 < 2 ^ (iwidth T - 1)) by (apply Z.pow_pos_nonneg; lia).
  rewrite promote_id by (auto using imax_range). unfold cshr. cbn [fst snd]. rewrite promo_idem.
  pose proof (promo_width T).
  replace ((0 <=? 1) && (1 <? iwidth (promo T))) with true by lia.
  rewrite Z.shiftr_div_pow2 by lia. change (2 ^ 1) with 2.
  assert (E : imax T / 2 = 2 ^ (iwidth T - 1) - 1).
  { unfold imax. rewrite ST. symmetry. apply (Z.div_unique_pos _ _ _ 1); lia. }
  rewrite E. split; [reflexivity|]. split; [|lia].
  apply (in_range_promo T); [assumption|]. rewrite unsigned_range by assumption. lia.
Qed.

Definition fitsb (w v : Z) : bool := (- 2 ^ (w - 1) <=? v) && (v <? 2 ^ (w - 1)).

Lemma can_cast_to_spec T F v : ity_ok T -> ity_ok F -> in_range F v ->
  can_cast_to_twos_compl T F v = Some (fitsb (iwidth T) v).
Proof.
  intros HT HF Hv. unfold can_cast_to_twos_compl. destruct (isigned T) eqn:ST; cbn [negb].
  - rewrite can_int_cast_spec by assumption. f_equal. unfold in_rangeb, imin, imax, fitsb.
    rewrite ST. f_equal. destruct (Z.leb_spec v (2 ^ (iwidth T - 1) - 1));
      destruct (Z.ltb_spec v (2 ^ (iwidth T - 1))); lia.
  - destruct (twos_max T HT ST) as (E & R & R0). rewrite E. cbn [obind].
    destruct (to_unsigned_id _ _ (promo_ok T HT) R R0) as (Eu & Ru). rewrite Eu. unfold cle.
    pose proof (unsigned_type_ok _ (promo_ok T HT)) as HU.
    assert (C : forall b : bool, forall x, (x <=? 2 ^ (iwidth T - 1) - 1) = (x <? 2 ^ (iwidth T - 1))).
    { intros _ x. destruct (Z.leb_spec x (2 ^ (iwidth T - 1) - 1)); destruct (Z.ltb_spec x (2 ^ (iwidth T - 1))); lia. }
    unfold fitsb.
    destruct (isigned F) eqn:SF; cbn [negb].
    + assert (Eg : cge (F, v) (t_int, 0) = (0 <=? v)).
      { unfold cge. destruct (Z.leb_spec 0 v) as [H|H].
        - rewrite crel_nonneg; try assumption; try lia; unfold ity_ok, in_range; cbn; lia.
        - unfold crel. cbn [fst snd].
          assert (Eu' : uac F t_int = promo F).
          { unfold uac. change (promo t_int) with t_int. rewrite (promo_signed F SF).
            cbn [t_int isigned Bool.eqb]. change (iwidth t_int) with 32. change (iwidth (ITy 32 true)) with 32.
            pose proof (promo_width F). now replace (32 <=? iwidth (promo F)) with true by lia. }
          rewrite Eu', !wrap_id; auto using promo_ok, in_range_promo, in_range_0.
          destruct (Z.geb_spec v 0); lia. }
      rewrite Eg. destruct (Z.leb_spec 0 v) as [H|H].
      * rewrite promote_id by assumption.
        destruct (to_unsigned_id _ v (promo_ok F HF) (in_range_promo F v HF Hv) H) as (Ef & Rf).
        rewrite Ef, crel_nonneg; auto using unsigned_type_ok, promo_ok. rewrite (C true).
        replace (- 2 ^ (iwidth T - 1) <=? v) with true by lia. reflexivity.
      * rewrite csub_minus_one by auto using in_range_promo. cbn [obind].
        assert (Rm : in_range (promo F) (-1 - v)).
        { pose proof (in_range_promo F v HF Hv) as Rp. unfold in_range, imin, imax in *.
          rewrite (promo_signed F SF) in *. lia. }
        destruct (to_unsigned_id _ (-1 - v) (promo_ok F HF) Rm ltac:(lia)) as (Ef & Rf).
        rewrite Ef, crel_nonneg; auto using unsigned_type_ok, promo_ok; [|lia]. f_equal.
        destruct (Z.leb_spec (-1 - v) (2 ^ (iwidth T - 1) - 1));
          destruct (Z.leb_spec (- 2 ^ (iwidth T - 1)) v); destruct (Z.ltb_spec v (2 ^ (iwidth T - 1)));
          cbn [andb]; lia.
    + pose proof (in_range_unsigned_nonneg F v SF Hv) as H0.
      rewrite crel_nonneg by assumption. rewrite (C true).
      replace (- 2 ^ (iwidth T - 1) <=? v) with true by lia. reflexivity.
Qed.

Lemma sign_bit_spec F v : ity_ok F -> isigned F = false -> in_range F v ->
  has_no_sign_bit F v = Some (v <? 2 ^ (iwidth F - 1)).
Proof.
  intros HF SF Hv. pose proof (ity_ok_width F HF) as Hw.
  pose proof Hv as Hv'. rewrite unsigned_range in Hv' by assumption.
  pose proof (pow2_double (iwidth F) Hw) as D.
  assert (P : 0 < 2 ^ (iwidth F - 1)) by (apply Z.pow_pos_nonneg; lia).
  unfold has_no_sign_bit.
  assert (R1 : in_range F 1) by (rewrite unsigned_range by assumption; lia).
  rewrite !promote_id by assumption. unfold cshl. cbn [fst snd]. rewrite promo_idem.
  pose proof (promo_width_ge F).
  replace ((0 <=? iwidth F - 1) && (iwidth F - 1 <? iwidth (promo F))) with true by lia.
  cbn [obind]. rewrite Z.shiftl_mul_pow2, Z.mul_1_l by lia.
  assert (R2 : in_range F (2 ^ (iwidth F - 1))) by (rewrite unsigned_range by assumption; lia).
  pose proof (promo_ok F HF) as HP.
  rewrite wrap_id by auto using in_range_promo.
  rewrite cand_nonneg; auto using in_range_promo, promo_idem; [|lia].
  assert (L : Z.land v (2 ^ (iwidth F - 1)) = if v <? 2 ^ (iwidth F - 1) then 0 else 2 ^ (iwidth F - 1)).
  { apply Z.bits_inj'. intros n Hn. rewrite Z.land_spec, Z.pow2_bits_eqb by lia.
    destruct (Z.eqb_spec (iwidth F - 1) n) as [En|En].
    - subst n. rewrite andb_true_r, Z.testbit_eqb by lia. rewrite sign_bit_div by assumption.
      destruct (v <? 2 ^ (iwidth F - 1)).
      + now rewrite Z.bits_0.
      + now rewrite Z.pow2_bits_true by lia.
    - rewrite andb_false_r. destruct (v <? 2 ^ (iwidth F - 1)); [now rewrite Z.bits_0|].
      now rewrite Z.pow2_bits_false by lia. }
  rewrite L. unfold ceq. destruct (v <? 2 ^ (iwidth F - 1)).
  - rewrite crel_nonneg; auto using in_range_0; try lia; unfold ity_ok, in_range; cbn; lia.
  - rewrite crel_nonneg; auto using in_range_promo; try lia; try (unfold ity_ok, in_range; cbn; lia).
    f_equal. apply Z.eqb_neq. lia.
Qed.

(* v as a number, if unsigned types are taken to hold two's complement *)
Definition from_value (F : ity) (v : Z) : Z := if isigned F then v else signed_value (iwidth F) v.

Lemma wrap_minus_one_u F : ity_ok F -> isigned F = false -> wrap F (-1) = imax F.
Proof.
  intros HF SF. apply ity_ok_width in HF. assert (0 < 2 ^ iwidth F) by (apply Z.pow_pos_nonneg; lia).
  unfold wrap, imax. rewrite SF. replace (-1) with (2 ^ iwidth F - 1 + (-1) * 2 ^ iwidth F) at 1 by lia.
  rewrite Z.mod_add by lia. apply Z.mod_small. lia.
Qed.

Lemma minus_one_range T : ity_ok T -> isigned T = true -> in_range T (-1).
Proof.
  intros HT ST. apply ity_ok_width in HT. unfold in_range, imin, imax. rewrite ST.
  assert (0 < 2 ^ (iwidth T - 1)) by (apply Z.pow_pos_nonneg; lia). lia.
Qed.

Lemma neg_parts T F v : ity_ok T -> ity_ok F -> isigned T = true -> isigned F = false ->
  in_range F v ->
  csub (promote F (wrap F (-1))) (promote F v) = Some (promo F, imax F - v) /\
  csub (promote T (wrap T (-1))) (promote T (imin T)) = Some (promo T, imax T) /\
  cle (to_unsigned (promo F, imax F - v)) (to_unsigned (promo T, imax T)) = (imax F - v <=? imax T) /\
  0 <= imax F - v /\ in_range F (imax F - v).
Proof.
  intros HT HF ST SF Hv. pose proof (promo_ok T HT) as HPT. pose proof (promo_ok F HF) as HPF.
  pose proof (in_range_unsigned_nonneg F v SF Hv) as V0.
  assert (Rv : in_range F (imax F - v)).
  { unfold in_range in *. rewrite imin_nvb, SF in *. lia. }
  assert (V1 : 0 <= imax F - v) by (unfold in_range in Hv; lia).
  rewrite wrap_minus_one_u by assumption.
  rewrite (promote_id F (imax F)), (promote_id F v) by auto using imax_range.
  rewrite (wrap_id T (-1)) by auto using minus_one_range.
  rewrite (promote_id T (-1)), (promote_id T (imin T)) by auto using imin_range, minus_one_range.
  split; [apply csub_promo; auto using in_range_promo, imax_range|].
  assert (Ei : -1 - imin T = imax T) by (unfold imin, imax; rewrite ST; lia).
  split.
  { rewrite csub_promo; auto using in_range_promo, imin_range, minus_one_range.
    - now rewrite Ei.
    - rewrite Ei. auto using in_range_promo, imax_range. }
  split; [|split; assumption].
  destruct (to_unsigned_id _ (imax F - v) HPF (in_range_promo F _ HF Rv) V1) as (E1 & R1).
  destruct (to_unsigned_id _ (imax T) HPT (in_range_promo T _ HT (imax_range T HT)) (imax_nonneg T HT)) as (E2 & R2).
  rewrite E1, E2. unfold cle. apply crel_nonneg; auto using unsigned_type_ok, imax_nonneg.
Qed.

Lemma can_cast_from_spec T F v : ity_ok T -> ity_ok F -> in_range F v ->
  can_cast_from_twos_compl T F v = Some (in_rangeb T (from_value F v)).
Proof.
  intros HT HF Hv. unfold can_cast_from_twos_compl, from_value.
  destruct (isigned F) eqn:SF; cbn [negb].
  - rewrite can_int_cast_spec by assumption. reflexivity.
  - rewrite sign_bit_spec by assumption. cbn [obind]. unfold signed_value.
    pose proof Hv as Hv'. rewrite unsigned_range in Hv' by assumption.
    destruct (isigned T) eqn:ST; cbn [negb].
    + destruct (Z.ltb_spec v (2 ^ (iwidth F - 1))) as [H|H].
      * rewrite (promote_id T (imax T)) by auto using imax_range.
        destruct (to_unsigned_id _ (imax T) (promo_ok T HT) (in_range_promo T _ HT (imax_range T HT))
                    (imax_nonneg T HT)) as (E & R).
        rewrite E. unfold cle. rewrite crel_nonneg; auto using unsigned_type_ok, promo_ok, imax_nonneg; [|lia].
        unfold in_rangeb. pose proof (in_range_0 T HT) as R0. unfold in_range in R0.
        replace (imin T <=? v) with true by lia. reflexivity.
      * destruct (neg_parts T F v HT HF ST SF Hv) as (E1 & E2 & E3 & _). rewrite E1, E2. cbn [obind].
        rewrite E3. f_equal. unfold in_rangeb, imin, imax. rewrite ST, SF.
        pose proof (ity_ok_width T HT). assert (0 < 2 ^ (iwidth T - 1)) by (apply Z.pow_pos_nonneg; lia).
        destruct (Z.leb_spec (2 ^ iwidth F - 1 - v) (2 ^ (iwidth T - 1) - 1));
          destruct (Z.leb_spec (- 2 ^ (iwidth T - 1)) (v - 2 ^ iwidth F));
          destruct (Z.leb_spec (v - 2 ^ iwidth F) (2 ^ (iwidth T - 1) - 1)); cbn [andb]; lia.
    + unfold cle. rewrite crel_nonneg; auto using imax_range, imax_nonneg; [|lia]. f_equal.
      unfold in_rangeb. rewrite (imin_nvb T), ST.
      destruct (Z.ltb_spec v (2 ^ (iwidth F - 1))) as [H|H]; cbn [andb].
      * now replace (0 <=? v) with true by lia.
      * replace (0 <=? v - 2 ^ iwidth F) with false by lia. reflexivity.
Qed.

Lemma try_cast_from_spec T F v to : ity_ok T -> ity_ok F -> in_range F v ->
  try_cast_from_twos_compl T F v to =
  Some (if in_rangeb T (from_value F v) then (true, from_value F v) else (false, to)).
Proof.
  intros HT HF Hv. pose proof (can_cast_from_spec T F v HT HF Hv) as K.
  unfold try_cast_from_twos_compl, can_cast_from_twos_compl in *. unfold from_value in *.
  destruct (isigned F) eqn:SF; cbn [negb] in *.
  - rewrite try_int_cast_spec by assumption. reflexivity.
  - pose proof Hv as Hv'. rewrite unsigned_range in Hv' by assumption.
    rewrite sign_bit_spec in * by assumption. cbn [obind] in *. unfold signed_value in *.
    destruct (isigned T) eqn:ST; cbn [negb] in *.
    + destruct (Z.ltb_spec v (2 ^ (iwidth F - 1))) as [H|H].
      * assert (K' : cle (F, v) (to_unsigned (promote T (imax T))) = in_rangeb T v) by congruence.
        rewrite K'. destruct (in_rangeb T v) eqn:E; [|reflexivity].
        apply in_rangeb_spec in E. now rewrite wrap_id by assumption.
      * destruct (neg_parts T F v HT HF ST SF Hv) as (E1 & E2 & E3 & V1 & Rv).
        rewrite E1, E2 in *. cbn [obind] in *.
        assert (K' : cle (to_unsigned (promo F, imax F - v)) (to_unsigned (promo T, imax T)) =
                     in_rangeb T (v - 2 ^ iwidth F)) by congruence.
        rewrite <- K', E3. destruct (Z.leb_spec (imax F - v) (imax T)) as [L|L]; [|reflexivity].
        cbn [snd].
        assert (Rt : in_range T (imax F - v)).
        { pose proof (in_range_0 T HT). unfold in_range in *. lia. }
        rewrite (wrap_id (promo T)) by auto using promo_ok, in_range_promo.
        rewrite csub_minus_one; auto using promo_ok, promo_signed;
          [|rewrite promo_idem; auto using in_range_promo].
        cbn [obind snd].
        replace (-1 - (imax F - v)) with (v - 2 ^ iwidth F) by (unfold imax; rewrite SF; lia).
        assert (Rf : in_rangeb T (v - 2 ^ iwidth F) = true) by (rewrite <- K', E3; lia).
        apply in_rangeb_spec in Rf. now rewrite wrap_id by assumption.
    + assert (K' : (v <? 2 ^ (iwidth F - 1)) && cle (F, v) (T, imax T) =
                   in_rangeb T (if v <? 2 ^ (iwidth F - 1) then v else v - 2 ^ iwidth F)) by congruence.
      rewrite K'. destruct (in_rangeb T _) eqn:E; [|reflexivity].
      apply in_rangeb_spec in E.
      destruct (v <? 2 ^ (iwidth F - 1)); [now rewrite wrap_id by assumption|].
      unfold in_range in E. rewrite imin_nvb, ST in E. lia.
Qed.
