From Coq Require Import ZArith Lia Bool List ZifyBool.
From Verif Require Import CInt IntModel IntSpec.
Import ListNotations.
Open Scope Z_scope.

(* ------------------------------------------------------------------ *)
(* ranges in terms of the number of value bits *)

Lemma in_range_nvb t v :
  in_range t v <-> (if isigned t then - 2 ^ nvb t <= v else 0 <= v) /\ v < 2 ^ nvb t.
Proof. unfold in_range, imin, imax, nvb. destruct (isigned t); lia. Qed.

Lemma representable_in_range t v : representable t v <-> in_range t v.
Proof. unfold representable, in_range, imin, imax. destruct (isigned t); lia. Qed.

Lemma nvb_pos t : ity_ok t -> 1 <= nvb t.
Proof. unfold ity_ok, nvb. destruct (isigned t); lia. Qed.

Lemma pow_nvb_pos t : ity_ok t -> 2 <= 2 ^ nvb t.
Proof.
  intros H. apply nvb_pos in H. change 2 with (2 ^ 1) at 1. apply Z.pow_le_mono_r; lia.
Qed.

Lemma pow_nvb_le t u : ity_ok t -> nvb t <= nvb u -> 2 ^ nvb t <= 2 ^ nvb u.
Proof. intros H ?. apply nvb_pos in H. apply Z.pow_le_mono_r; lia. Qed.

Lemma imax_nvb t : imax t = 2 ^ nvb t - 1.
Proof. unfold imax, nvb. destruct (isigned t); reflexivity. Qed.

Lemma imin_nvb t : imin t = if isigned t then - 2 ^ nvb t else 0.
Proof. unfold imin, nvb. destruct (isigned t); reflexivity. Qed.

Lemma in_range_nonneg t u v :
  ity_ok t -> nvb t <= nvb u -> 0 <= v -> in_range t v -> in_range u v.
Proof.
  intros Ht Hn Hv. pose proof (pow_nvb_le t u Ht Hn). rewrite !in_range_nvb.
  destruct (isigned t), (isigned u); lia.
Qed.

Lemma in_range_signed t u v :
  ity_ok t -> nvb t <= nvb u -> isigned u = true -> in_range t v -> in_range u v.
Proof.
  intros Ht Hn Hs. pose proof (pow_nvb_le t u Ht Hn). rewrite !in_range_nvb, Hs.
  destruct (isigned t); lia.
Qed.

Lemma in_range_unsigned_nonneg t v : isigned t = false -> in_range t v -> 0 <= v.
Proof. rewrite in_range_nvb. intros ->. lia. Qed.

(* ------------------------------------------------------------------ *)
(* common types *)

Lemma common2_facts A B : ity_ok A -> ity_ok B ->
  let T := common2 A B in
  ity_ok T /\ nvb A <= nvb T /\ nvb B <= nvb T /\ iwidth A <= iwidth T /\ iwidth B <= iwidth T
  /\ (T = A \/ T = B)
  /\ (isigned A = isigned B -> isigned T = isigned A)
  /\ (isigned A = true -> isigned B = false -> isigned T = (nvb B <=? nvb A))
  /\ (isigned A = false -> isigned B = true -> isigned T = (nvb A <=? nvb B)).
Proof.
  intros HA HB. cbv zeta. unfold common2, nvb, ity_ok in *.
  destruct A as [wa sa], B as [wb sb]; cbn [iwidth isigned] in *.
  destruct sa, sb; cbn [Bool.eqb]; cbn [iwidth isigned] in *;
    match goal with |- context [if ?b <=? ?c then _ else _] =>
      destruct (Z.leb_spec b c) end;
    cbn [iwidth isigned] in *; intuition (try discriminate; try lia).
Qed.

Lemma t_int_ok : ity_ok t_int. Proof. unfold ity_ok; cbn; lia. Qed.
Lemma t_uint_ok : ity_ok t_uint. Proof. unfold ity_ok; cbn; lia. Qed.

Lemma unsigned_type_ok t : ity_ok t -> ity_ok (unsigned_type t).
Proof. unfold ity_ok, unsigned_type. destruct t as [w []]; cbn; lia. Qed.

Lemma nvb_unsigned_type t : nvb (unsigned_type t) = iwidth t.
Proof. reflexivity. Qed.

(* common_int_type<unsigned, A, B> for unsigned A, B *)
Lemma common3u_facts A B : ity_ok A -> ity_ok B ->
  isigned A = false -> isigned B = false ->
  let T := common3 t_uint A B in
  ity_ok T /\ isigned T = false /\ 32 <= iwidth T /\ nvb A <= nvb T /\ nvb B <= nvb T
  /\ iwidth A <= iwidth T /\ iwidth B <= iwidth T.
Proof.
  intros HA HB SA SB. cbv zeta. unfold common3.
  destruct (common2_facts A B HA HB) as (H1 & H2 & H3 & H4 & H5 & H6 & H7 & _).
  rewrite SA, SB in H7. specialize (H7 eq_refl).
  destruct (common2_facts t_uint (common2 A B) t_uint_ok H1)
    as (G1 & G2 & G3 & G4 & G5 & G6 & G7 & _).
  rewrite H7 in G7. specialize (G7 eq_refl). cbn [isigned t_uint iwidth] in *.
  repeat split; try assumption; lia.
Qed.

Lemma common2u_facts A : ity_ok A -> isigned A = false ->
  let T := common2 t_uint A in
  ity_ok T /\ isigned T = false /\ 32 <= iwidth T /\ nvb A <= nvb T /\ iwidth A <= iwidth T.
Proof.
  intros HA SA. cbv zeta.
  destruct (common2_facts t_uint A t_uint_ok HA) as (G1 & G2 & G3 & G4 & G5 & G6 & G7 & _).
  rewrite SA in G7. specialize (G7 eq_refl). cbn [isigned t_uint iwidth] in *.
  repeat split; try assumption; lia.
Qed.

(* common_int_type<int, A, B> *)
Lemma common3i_facts A B : ity_ok A -> ity_ok B ->
  let T := common3 t_int A B in
  ity_ok T /\ 32 <= iwidth T /\ nvb A <= nvb T /\ nvb B <= nvb T
  /\ iwidth A <= iwidth T /\ iwidth B <= iwidth T
  /\ (isigned T = false -> isigned (common2 A B) = false)
  /\ (isigned A = true -> isigned B = true -> isigned T = true).
Proof.
  intros HA HB. cbv zeta. unfold common3.
  destruct (common2_facts A B HA HB) as (H1 & H2 & H3 & H4 & H5 & H6 & H7 & _).
  destruct (common2_facts t_int (common2 A B) t_int_ok H1)
    as (G1 & G2 & G3 & G4 & G5 & G6 & G7 & G8 & G9).
  cbn [isigned t_int iwidth] in *.
  repeat split; try assumption; try lia.
Qed.

Lemma strongly_promoted_facts A : ity_ok A ->
  let T := strongly_promoted_type A in
  ity_ok T /\ 32 <= iwidth T /\ isigned T = isigned (promo A) /\ nvb A <= nvb T
  /\ iwidth A <= iwidth T /\ T = promo A.
Proof.
  intros HA. cbv zeta. unfold strongly_promoted_type.
  assert (HP := promo_ok A HA). assert (HW := promo_width A).
  assert (common2 t_int (promo A) = promo A \/ common2 t_int (promo A) = t_int /\ promo A = t_int).
  { unfold common2, nvb. destruct (promo A) as [w s] eqn:E. cbn [iwidth isigned t_int] in *.
    destruct s; cbn [Bool.eqb].
    - destruct (Z.leb_spec (w - 1) (32 - 1)); [right|now left].
      assert (w = 32) by lia. subst. split; reflexivity.
    - destruct (Z.leb_spec w (32 - 1)); [lia|now left]. }
  assert (Heq : common2 t_int (promo A) = promo A) by (destruct H as [H|[H1 H2]]; congruence).
  rewrite Heq. repeat split; try assumption.
  - unfold nvb, promo. destruct A as [w s]; cbn [iwidth isigned].
    destruct (Z.ltb_spec w 32); cbn [iwidth isigned t_int]; destruct s; lia.
  - apply promo_width_ge.
Qed.

Lemma promo_nvb_ge t : nvb t <= nvb (promo t).
Proof.
  unfold nvb, promo. destruct t as [w s]; cbn [iwidth isigned].
  destruct (Z.ltb_spec w 32); cbn [iwidth isigned t_int]; destruct s; lia.
Qed.

(* ------------------------------------------------------------------ *)
(* operations on two operands of the same type *)

Lemma crel_same f t x y : ity_ok t -> in_range t x -> in_range t y ->
  crel f (t, x) (t, y) = f x y.
Proof.
  intros Ht Hx Hy. unfold crel. cbn [fst snd]. rewrite uac_same.
  rewrite !wrap_id; auto using promo_ok, in_range_promo.
Qed.

Lemma cbin_same f t x y : ity_ok t -> in_range t x -> in_range t y ->
  cbin f (t, x) (t, y) = norm (promo t) (f x y).
Proof.
  intros Ht Hx Hy. unfold cbin. cbn [fst snd]. rewrite uac_same.
  rewrite !wrap_id; auto using promo_ok, in_range_promo.
Qed.

Lemma norm_in t z : in_range t z -> ity_ok t -> norm t z = Some (t, z).
Proof.
  intros Hz Ht. unfold norm. destruct (isigned t).
  - apply in_rangeb_spec in Hz. now rewrite Hz.
  - now rewrite wrap_id.
Qed.

Lemma norm_unsigned t z : isigned t = false -> norm t z = Some (t, wrap t z).
Proof. intros H. unfold norm. now rewrite H. Qed.

Lemma cdiv_same t x y : ity_ok t -> in_range t x -> in_range t y -> y <> 0 ->
  in_range (promo t) (Z.quot x y) ->
  cdiv (t, x) (t, y) = Some (promo t, Z.quot x y).
Proof.
  intros Ht Hx Hy Hnz Hq. unfold cdiv. cbn [fst snd]. rewrite uac_same.
  rewrite !wrap_id; auto using promo_ok, in_range_promo.
  destruct (Z.eqb_spec y 0); [contradiction|]. apply norm_in; auto using promo_ok.
Qed.

Lemma crem_same t x y : ity_ok t -> in_range t x -> in_range t y -> y <> 0 ->
  in_range (promo t) (Z.quot x y) ->
  crem (t, x) (t, y) = Some (promo t, Z.rem x y).
Proof.
  intros Ht Hx Hy Hnz Hq. unfold crem. cbn [fst snd]. rewrite uac_same.
  rewrite !wrap_id; auto using promo_ok, in_range_promo.
  destruct (Z.eqb_spec y 0); [contradiction|]. rewrite norm_in; auto using promo_ok.
Qed.

Ltac usegs :=
  repeat match goal with
         | H : ity_ok ?t |- _ =>
           lazymatch goal with
           | _ : 2 <= 2 ^ nvb t |- _ => fail
           | _ => pose proof (pow_nvb_pos t H)
           end
         end.

(* ------------------------------------------------------------------ *)
(* comparison *)

Lemma promo_common_facts A B : ity_ok A -> ity_ok B ->
  let T := promo (common2 A B) in
  ity_ok T /\ promo T = T /\ nvb A <= nvb T /\ nvb B <= nvb T
  /\ iwidth A <= iwidth T /\ iwidth B <= iwidth T
  /\ (isigned A = isigned B -> isigned A = true -> isigned T = true)
  /\ (isigned T = false -> isigned (common2 A B) = false).
Proof.
  intros HA HB. cbv zeta.
  destruct (common2_facts A B HA HB) as (H1 & H2 & H3 & H4 & H5 & H6 & H7 & H8 & H9).
  pose proof (promo_nvb_ge (common2 A B)). pose proof (promo_width_ge (common2 A B)).
  repeat split; try lia; auto using promo_ok, promo_idem.
  - intros E S. specialize (H7 E). unfold promo. destruct (_ <? _); [reflexivity|congruence].
  - unfold promo. destruct (_ <? _); [discriminate|auto].
Qed.

Lemma int_less_spec A B a b : ity_ok A -> ity_ok B -> in_range A a -> in_range B b ->
  int_less A B a b = (a <? b).
Proof.
  intros HA HB Ha Hb. unfold int_less, int_cast_a, is_negative, clt.
  destruct (promo_common_facts A B HA HB) as (H1 & H2 & H3 & H4 & H5 & H6 & H7 & H8).
  set (T := promo (common2 A B)) in *.
  destruct (isigned A) eqn:SA, (isigned B) eqn:SB; cbn [negb].
  - specialize (H7 eq_refl eq_refl).
    rewrite !wrap_id by eauto using in_range_signed.
    apply crel_same; eauto using in_range_signed.
  - pose proof (in_range_unsigned_nonneg B b SB Hb).
    destruct (Z.ltb_spec a 0); cbn [orb].
    + symmetry. apply Z.ltb_lt. lia.
    + rewrite !wrap_id by eauto using in_range_nonneg.
      apply crel_same; eauto using in_range_nonneg.
  - pose proof (in_range_unsigned_nonneg A a SA Ha).
    destruct (Z.ltb_spec b 0); cbn [andb negb].
    + symmetry. apply Z.ltb_ge. lia.
    + rewrite !wrap_id by eauto using in_range_nonneg.
      apply crel_same; eauto using in_range_nonneg.
  - pose proof (in_range_unsigned_nonneg A a SA Ha).
    pose proof (in_range_unsigned_nonneg B b SB Hb).
    rewrite !wrap_id by eauto using in_range_nonneg.
    apply crel_same; eauto using in_range_nonneg.
Qed.

Lemma int_equal_spec A B a b : ity_ok A -> ity_ok B -> in_range A a -> in_range B b ->
  int_equal A B a b = (a =? b).
Proof.
  intros HA HB Ha Hb. unfold int_equal, int_cast_a, is_negative, ceq.
  destruct (promo_common_facts A B HA HB) as (H1 & H2 & H3 & H4 & H5 & H6 & H7 & H8).
  set (T := promo (common2 A B)) in *.
  destruct (isigned A) eqn:SA, (isigned B) eqn:SB; cbn [negb].
  - specialize (H7 eq_refl eq_refl).
    rewrite !wrap_id by eauto using in_range_signed.
    apply crel_same; eauto using in_range_signed.
  - pose proof (in_range_unsigned_nonneg B b SB Hb).
    destruct (Z.ltb_spec a 0); cbn [andb negb].
    + symmetry. apply Z.eqb_neq. lia.
    + rewrite !wrap_id by eauto using in_range_nonneg.
      apply crel_same; eauto using in_range_nonneg.
  - pose proof (in_range_unsigned_nonneg A a SA Ha).
    destruct (Z.ltb_spec b 0); cbn [andb negb].
    + symmetry. apply Z.eqb_neq. lia.
    + rewrite !wrap_id by eauto using in_range_nonneg.
      apply crel_same; eauto using in_range_nonneg.
  - pose proof (in_range_unsigned_nonneg A a SA Ha).
    pose proof (in_range_unsigned_nonneg B b SB Hb).
    rewrite !wrap_id by eauto using in_range_nonneg.
    apply crel_same; eauto using in_range_nonneg.
Qed.

Lemma can_int_cast_spec T F v : ity_ok T -> ity_ok F -> in_range F v ->
  can_int_cast T F v = in_rangeb T v.
Proof.
  intros HT HF Hv. unfold can_int_cast, int_greater_equal, int_less_equal, in_rangeb.
  rewrite !int_less_spec by auto using imin_range, imax_range.
  rewrite !Z.leb_antisym. reflexivity.
Qed.

Lemma try_int_cast_spec T F v to : ity_ok T -> ity_ok F -> in_range F v ->
  try_int_cast T F v to = if in_rangeb T v then (true, v) else (false, to).
Proof.
  intros HT HF Hv. unfold try_int_cast. rewrite can_int_cast_spec by assumption.
  destruct (in_rangeb T v) eqn:E; [|reflexivity].
  apply in_rangeb_spec in E. unfold int_cast_a. now rewrite wrap_id.
Qed.

Lemma int_cast_clamp_spec T F v mn mx : ity_ok T -> ity_ok F -> in_range F v ->
  in_range T mn -> in_range T mx -> mn <= mx ->
  int_cast_clamp T F v mn mx = Z.max mn (Z.min v mx).
Proof.
  intros HT HF Hv Hmn Hmx Hle. unfold int_cast_clamp, int_greater_equal, int_less_equal.
  rewrite !int_less_spec by assumption.
  destruct (Z.ltb_spec v mn); cbn [negb]; [lia|].
  destruct (Z.ltb_spec mx v); cbn [negb]; [lia|].
  unfold int_cast_a. rewrite wrap_id; [lia|assumption|].
  unfold in_range in *. lia.
Qed.

(* ------------------------------------------------------------------ *)
(* addition *)

Definition add_res (L : ity) (old x : Z) : option (bool * Z) :=
  if in_rangeb L x then Some (true, x) else Some (false, old).

Lemma add_res_true L old x : in_range L x -> add_res L old x = Some (true, x).
Proof. intros H. apply in_rangeb_spec in H. unfold add_res. now rewrite H. Qed.
Lemma add_res_false L old x : ~ in_range L x -> add_res L old x = Some (false, old).
Proof. intros H. apply in_rangeb_false in H. unfold add_res. now rewrite H. Qed.

(* results computed modulo the wide type convert back to the exact value *)
Lemma cast_back L T x z k : ity_ok L -> iwidth L <= iwidth T -> in_range L x ->
  z = x + k * 2 ^ iwidth T -> wrap L z = x.
Proof.
  intros HL Hw Hx ->. pose proof (ity_ok_width _ HL).
  destruct (pow2_divides (iwidth L) (iwidth T)) as [m Hm]; [lia|].
  apply (wrap_eq_of_cong L _ x (k * m)); auto. rewrite Hm. ring.
Qed.

Lemma unsigned_range t v : isigned t = false -> in_range t v <-> 0 <= v < 2 ^ iwidth t.
Proof. intros H. unfold in_range, imin, imax. rewrite H. lia. Qed.

Ltac rng := unfold in_range in *; rewrite ?imin_nvb, ?imax_nvb in *;
  repeat match goal with H : isigned ?t = _ |- _ => rewrite H in * end; try lia.

Lemma try_int_add_uu_spec L R l r : ity_ok L -> ity_ok R ->
  isigned L = false -> isigned R = false -> in_range L l -> in_range R r ->
  try_int_add_uu L R l r = add_res L l (l + r).
Proof.
  intros HL HR SL SR Hl Hr. unfold try_int_add_uu, int_cast_a.
  destruct (common3u_facts L R HL HR SL SR) as (H1 & H2 & H3 & H4 & H5 & H6 & H7).
  set (T := common3 t_uint L R) in *.
  pose proof (in_range_unsigned_nonneg L l SL Hl).
  pose proof (in_range_unsigned_nonneg R r SR Hr).
  assert (l <= imax L) by (unfold in_range in Hl; lia).
  assert (in_range T l) by eauto using in_range_nonneg.
  assert (in_range T r) by eauto using in_range_nonneg.
  assert (in_range T (imax L)) by (eapply (in_range_nonneg L); eauto using imax_range; lia).
  rewrite (wrap_id T l), (wrap_id T r), (wrap_id T (imax L)) by assumption.
  unfold csub, cadd, cgt. rewrite cbin_same by assumption. rewrite promo_wide by assumption.
  rewrite norm_in by (try assumption; rng). cbn [obind].
  rewrite crel_same by (try assumption; rng).
  rewrite Z.gtb_ltb. destruct (Z.ltb_spec (imax L - l) r); cbn [negb].
  - rewrite add_res_false; [reflexivity|]. unfold in_range. lia.
  - rewrite cbin_same by assumption. rewrite promo_wide by assumption.
    rewrite norm_unsigned by assumption. cbn [obind snd].
    rewrite add_res_true by rng. f_equal. f_equal.
    rewrite wrap_wrap by assumption. apply wrap_id; [assumption|]. rng.
Qed.

Lemma try_int_add_ss_spec L R l r : ity_ok L -> ity_ok R ->
  isigned L = true -> isigned R = true -> in_range L l -> in_range R r ->
  try_int_add_ss L R l r = add_res L l (l + r).
Proof.
  intros HL HR SL SR Hl Hr. unfold try_int_add_ss, int_cast_a.
  destruct (common2_facts L R HL HR) as (H1 & H2 & H3 & H4 & H5 & H6 & H7 & _ & _).
  rewrite SL, SR in H7. specialize (H7 eq_refl).
  set (T := common2 L R) in *.
  assert (HlT : in_range T l) by eauto using in_range_signed.
  assert (HrT : in_range T r) by eauto using in_range_signed.
  assert (HmxT : in_range T (imax L)) by eauto using in_range_signed, imax_range.
  assert (HmnT : in_range T (imin L)) by eauto using in_range_signed, imin_range.
  rewrite (wrap_id T l), (wrap_id T r), (wrap_id T (imax L)), (wrap_id T (imin L)) by assumption.
  pose proof (promo_ok T H1) as HP.
  pose proof (in_range_promo T) as HRP.
  assert (Hmn : imin L < 0) by (rewrite imin_nvb, SL; usegs; lia).
  assert (Hmx : 0 < imax L) by (rewrite imax_nvb; usegs; lia).
  assert (HP' : isigned (promo T) = true)
    by (unfold promo; destruct (_ <? _); [reflexivity|assumption]).
  unfold is_negative. rewrite H7.
  assert (Hadd : in_range L (l + r) ->
    (let* s := cadd (T, l) (T, r) in Some (true, wrap L (snd s))) = add_res L l (l + r)).
  { intros Hs. unfold cadd. rewrite cbin_same by assumption.
    rewrite norm_in; [|apply HRP; [assumption|];
      eauto using in_range_signed|assumption].
    cbn [obind snd]. rewrite wrap_id by assumption. now rewrite add_res_true. }
  unfold csub, clt, cgt.
  destruct (Z.ltb_spec r 0).
  - rewrite cbin_same by assumption.
    assert (in_range T (imin L - r)) by (rng; usegs; lia).
    rewrite norm_in by auto. cbn [obind].
    assert (Hc : crel Z.ltb (T, l) (promo T, imin L - r) = (l <? imin L - r)).
    { unfold crel; cbn [fst snd]. rewrite <- (uac_same T).
      assert (E : uac T (uac T T) = promo T).
      { rewrite uac_same. unfold uac. rewrite promo_idem, Bool.eqb_reflx.
        now rewrite Z.leb_refl. }
      rewrite E. rewrite !wrap_id; auto. }
    rewrite Hc. destruct (Z.ltb_spec l (imin L - r)); cbn [negb].
    + rewrite add_res_false; [reflexivity|]. unfold in_range; lia.
    + apply Hadd. unfold in_range in *; lia.
  - rewrite cbin_same by assumption.
    assert (in_range T (imax L - r)) by (rng; usegs; lia).
    rewrite norm_in by auto. cbn [obind].
    assert (Hc : crel Z.gtb (T, l) (promo T, imax L - r) = (l >? imax L - r)).
    { unfold crel; cbn [fst snd]. rewrite <- (uac_same T).
      assert (E : uac T (uac T T) = promo T).
      { rewrite uac_same. unfold uac. rewrite promo_idem, Bool.eqb_reflx.
        now rewrite Z.leb_refl. }
      rewrite E. rewrite !wrap_id; auto. }
    rewrite Hc, Z.gtb_ltb. destruct (Z.ltb_spec (imax L - r) l); cbn [negb].
    + rewrite add_res_false; [reflexivity|]. unfold in_range; lia.
    + apply Hadd. unfold in_range in *; lia.
Qed.

Lemma uac_promo_r t : uac t (promo t) = promo t.
Proof. unfold uac. rewrite promo_idem, Bool.eqb_reflx. now rewrite Z.leb_refl. Qed.
Lemma uac_promo_l t : uac (promo t) t = promo t.
Proof. unfold uac. rewrite promo_idem, Bool.eqb_reflx. now rewrite Z.leb_refl. Qed.

Lemma crel_promo_r f t x y : ity_ok t -> in_range t x -> in_range (promo t) y ->
  crel f (t, x) (promo t, y) = f x y.
Proof.
  intros. unfold crel; cbn [fst snd]. rewrite uac_promo_r.
  rewrite !wrap_id; auto using promo_ok, in_range_promo.
Qed.
Lemma crel_promo_l f t x y : ity_ok t -> in_range (promo t) x -> in_range t y ->
  crel f (promo t, x) (t, y) = f x y.
Proof.
  intros. unfold crel; cbn [fst snd]. rewrite uac_promo_l.
  rewrite !wrap_id; auto using promo_ok, in_range_promo.
Qed.

Lemma wrap_m1 t : ity_ok t -> isigned t = true -> wrap t (-1) = -1.
Proof.
  intros H S. apply wrap_id; [assumption|]. rewrite in_range_nvb, S.
  pose proof (pow_nvb_pos t H). lia.
Qed.

(* -1 - r for negative r of a signed type, converted to the unsigned type *)
Lemma minus1_sub R r : ity_ok R -> isigned R = true -> in_range R r -> r < 0 ->
  csub (R, wrap R (-1)) (R, r) = Some (promo R, -1 - r) /\ in_range R (-1 - r).
Proof.
  intros HR SR Hr Hn. rewrite wrap_m1 by assumption.
  assert (in_range R (-1 - r)) by (rewrite in_range_nvb, SR in *; lia).
  assert (in_range R (-1)) by (rewrite in_range_nvb, SR in *; pose proof (pow_nvb_pos R HR); lia).
  split; [|assumption]. unfold csub. rewrite cbin_same by assumption.
  apply norm_in; auto using promo_ok, in_range_promo.
Qed.

Lemma iwidth_nvb_signed t : isigned t = true -> iwidth t = nvb t + 1.
Proof. unfold nvb. intros ->. lia. Qed.
Lemma iwidth_nvb_unsigned t : isigned t = false -> iwidth t = nvb t.
Proof. unfold nvb. intros ->. lia. Qed.

Lemma to_unsigned_nonneg R r : ity_ok R -> in_range R r -> 0 <= r ->
  in_range (unsigned_type R) r.
Proof.
  intros HR Hr Hn. apply (in_range_nonneg R); auto.
  rewrite nvb_unsigned_type. unfold nvb. destruct (isigned R); lia.
Qed.

Lemma try_int_add_us_neg L R l r : ity_ok L -> ity_ok R ->
  isigned L = false -> isigned R = true -> in_range L l -> in_range R r -> r < 0 ->
  try_int_add L R l r = add_res L l (l + r).
Proof.
  intros HL HR SL SR Hl Hr Hn. unfold try_int_add, int_cast_a, is_negative.
  rewrite SL, SR. cbn [negb].
  replace (r <? 0) with true by lia.
  destruct (common3u_facts L (unsigned_type R) HL (unsigned_type_ok R HR) SL eq_refl)
    as (H1 & H2 & H3 & H4 & H5 & H6 & H7).
  set (T := common3 t_uint L (unsigned_type R)) in *.
  destruct (minus1_sub R r HR SR Hr Hn) as [Hd Hdr]. rewrite Hd. cbn [obind snd].
  rewrite nvb_unsigned_type in H5. cbn [unsigned_type iwidth] in H7.
  pose proof (in_range_unsigned_nonneg L l SL Hl).
  assert (in_range T l) by eauto using in_range_nonneg.
  assert (in_range T (-1 - r)).
  { apply (in_range_nonneg R); auto; [|lia]. pose proof (iwidth_nvb_signed R SR). lia. }
  rewrite (wrap_id T l), (wrap_id T (-1 - r)) by assumption.
  unfold cge. rewrite crel_same by assumption. rewrite Z.geb_leb.
  destruct (Z.leb_spec l (-1 - r)); cbn [negb].
  - rewrite add_res_false; [reflexivity|]. intros Hc.
    apply (in_range_unsigned_nonneg L _ SL) in Hc. lia.
  - unfold cadd. rewrite cbin_same; auto using wrap_range.
    rewrite promo_wide by assumption. rewrite norm_unsigned by assumption. cbn [obind snd].
    assert (in_range L (l + r)) by rng.
    rewrite add_res_true by assumption. f_equal. f_equal.
    destruct (wrap_cong T r H1) as [k Hk].
    rewrite wrap_wrap by assumption.
    apply (cast_back L T _ _ k); auto. rewrite Hk. ring.
Qed.

Lemma try_int_add_su_wide L R l r : ity_ok L -> ity_ok R ->
  isigned L = true -> isigned R = false -> nvb L < nvb R -> in_range L l -> in_range R r ->
  try_int_add L R l r = add_res L l (l + r).
Proof.
  intros HL HR SL SR Hw Hl Hr. unfold try_int_add, int_cast_a.
  rewrite SL, SR. cbn [negb].
  replace (nvb R <=? nvb L) with false by lia.
  destruct (common2u_facts R HR SR) as (H1 & H2 & H3 & H4 & H5).
  set (T := common2 t_uint R) in *.
  pose proof (in_range_unsigned_nonneg R r SR Hr).
  assert (in_range T r) by eauto using in_range_nonneg.
  assert (Hmx : in_range T (imax L)).
  { eapply (in_range_nonneg L); eauto using imax_range; [lia|]. rewrite imax_nvb. usegs. lia. }
  rewrite (wrap_id T r), (wrap_id T (imax L)) by assumption.
  unfold csub. rewrite cbin_same; auto using wrap_range. rewrite promo_wide by assumption.
  rewrite norm_unsigned by assumption. cbn [obind snd].
  assert (HT := pow_nvb_le L T HL ltac:(lia)).
  assert (2 ^ (nvb L + 1) <= 2 ^ nvb T) by (apply Z.pow_le_mono_r; lia).
  assert (E2 : 2 ^ (nvb L + 1) = 2 * 2 ^ nvb L).
  { pose proof (nvb_pos L HL). rewrite Z.pow_add_r by lia. lia. }
  assert (Hd : wrap T (imax L - wrap T l) = imax L - l).
  { destruct (wrap_cong T l H1) as [k Hk].
    apply (wrap_eq_of_cong T _ _ (-k)); [assumption| |rewrite Hk; ring].
    clear - SL H2 H Hl E2 H0 HL H6. rng. }
  assert (HdT : in_range T (imax L - l)) by (rewrite <- Hd; now apply wrap_range).
  rewrite Hd, (wrap_id T (imax L - l)) by assumption.
  unfold cgt. rewrite crel_same by assumption. rewrite Z.gtb_ltb.
  destruct (Z.ltb_spec (imax L - l) r); cbn [negb].
  - rewrite add_res_false; [reflexivity|]. unfold in_range; lia.
  - unfold cadd. rewrite cbin_same; auto using wrap_range.
    rewrite promo_wide by assumption. rewrite norm_unsigned by assumption. cbn [obind snd].
    assert (in_range L (l + r)) by (unfold in_range in *; lia).
    rewrite add_res_true by assumption. f_equal. f_equal.
    destruct (wrap_cong T l H1) as [k Hk].
    pose proof (iwidth_nvb_signed L SL). pose proof (iwidth_nvb_unsigned T H2).
    rewrite wrap_wrap by (auto; lia).
    apply (cast_back L T _ _ k); auto; [lia|]. rewrite Hk. ring.
Qed.

Lemma try_int_add_spec L R l r : ity_ok L -> ity_ok R -> in_range L l -> in_range R r ->
  try_int_add L R l r = add_res L l (l + r).
Proof.
  intros HL HR Hl Hr.
  destruct (isigned L) eqn:SL, (isigned R) eqn:SR.
  - unfold try_int_add. rewrite SL, SR. cbn [negb]. now apply try_int_add_ss_spec.
  - destruct (Z_lt_le_dec (nvb L) (nvb R)).
    + now apply try_int_add_su_wide.
    + unfold try_int_add, int_cast_a. rewrite SL, SR. cbn [negb].
      replace (nvb R <=? nvb L) with true by lia.
      pose proof (in_range_unsigned_nonneg R r SR Hr).
      assert (in_range L r) by eauto using in_range_nonneg.
      rewrite wrap_id by assumption. now apply try_int_add_ss_spec.
  - destruct (Z_lt_le_dec r 0).
    + now apply try_int_add_us_neg.
    + unfold try_int_add, int_cast_a, is_negative. rewrite SL, SR. cbn [negb].
      replace (r <? 0) with false by lia.
      pose proof (to_unsigned_nonneg R r HR Hr l0).
      rewrite wrap_id by auto using unsigned_type_ok.
      now apply try_int_add_uu_spec; auto using unsigned_type_ok.
  - unfold try_int_add. rewrite SL, SR. cbn [negb]. now apply try_int_add_uu_spec.
Qed.

(* ------------------------------------------------------------------ *)
(* subtraction *)

Lemma try_int_sub_uu_spec L R l r : ity_ok L -> ity_ok R ->
  isigned L = false -> isigned R = false -> in_range L l -> in_range R r ->
  try_int_sub_uu L R l r = add_res L l (l - r).
Proof.
  intros HL HR SL SR Hl Hr. unfold try_int_sub_uu, int_cast_a.
  destruct (common3u_facts L R HL HR SL SR) as (H1 & H2 & H3 & H4 & H5 & H6 & H7).
  set (T := common3 t_uint L R) in *.
  pose proof (in_range_unsigned_nonneg L l SL Hl).
  pose proof (in_range_unsigned_nonneg R r SR Hr).
  assert (in_range T l) by eauto using in_range_nonneg.
  assert (in_range T r) by eauto using in_range_nonneg.
  rewrite (wrap_id T l), (wrap_id T r) by assumption.
  unfold csub, cgt. rewrite crel_same by assumption.
  rewrite Z.gtb_ltb. destruct (Z.ltb_spec l r); cbn [negb].
  - rewrite add_res_false; [reflexivity|]. intros Hc.
    apply (in_range_unsigned_nonneg L _ SL) in Hc. lia.
  - rewrite cbin_same by assumption. rewrite promo_wide by assumption.
    rewrite norm_unsigned by assumption. cbn [obind snd].
    assert (in_range L (l - r)) by rng.
    rewrite add_res_true by assumption. f_equal. f_equal.
    rewrite wrap_wrap by assumption. now apply wrap_id.
Qed.

Lemma try_int_sub_ss_spec L R l r : ity_ok L -> ity_ok R ->
  isigned L = true -> isigned R = true -> in_range L l -> in_range R r ->
  try_int_sub_ss L R l r = add_res L l (l - r).
Proof.
  intros HL HR SL SR Hl Hr. unfold try_int_sub_ss, int_cast_a.
  destruct (common2_facts L R HL HR) as (H1 & H2 & H3 & H4 & H5 & H6 & H7 & _ & _).
  rewrite SL, SR in H7. specialize (H7 eq_refl).
  set (T := common2 L R) in *.
  assert (HlT : in_range T l) by eauto using in_range_signed.
  assert (HrT : in_range T r) by eauto using in_range_signed.
  assert (HmxT : in_range T (imax L)) by eauto using in_range_signed, imax_range.
  assert (HmnT : in_range T (imin L)) by eauto using in_range_signed, imin_range.
  rewrite (wrap_id T l), (wrap_id T r), (wrap_id T (imax L)), (wrap_id T (imin L)) by assumption.
  pose proof (promo_ok T H1) as HP.
  pose proof (in_range_promo T) as HRP.
  assert (Hmn : imin L < 0) by (rewrite imin_nvb, SL; usegs; lia).
  assert (Hmx : 0 < imax L) by (rewrite imax_nvb; usegs; lia).
  unfold is_negative. rewrite H7.
  assert (Hadd : in_range L (l - r) ->
    (let* s := csub (T, l) (T, r) in Some (true, wrap L (snd s))) = add_res L l (l - r)).
  { intros Hs. unfold csub. rewrite cbin_same by assumption.
    rewrite norm_in; [|apply HRP; [assumption|];
      eauto using in_range_signed|assumption].
    cbn [obind snd]. rewrite wrap_id by assumption. now rewrite add_res_true. }
  unfold cadd, clt, cgt.
  destruct (Z.ltb_spec r 0).
  - rewrite cbin_same by assumption.
    assert (in_range T (imax L + r)) by (rng; usegs; lia).
    rewrite norm_in by auto. cbn [obind].
    rewrite crel_promo_r by auto. rewrite Z.gtb_ltb.
    destruct (Z.ltb_spec (imax L + r) l); cbn [negb].
    + rewrite add_res_false; [reflexivity|]. unfold in_range; lia.
    + apply Hadd. unfold in_range in *; lia.
  - rewrite cbin_same by assumption.
    assert (in_range T (imin L + r)) by (rng; usegs; lia).
    rewrite norm_in by auto. cbn [obind].
    rewrite crel_promo_r by auto.
    destruct (Z.ltb_spec l (imin L + r)); cbn [negb].
    + rewrite add_res_false; [reflexivity|]. unfold in_range; lia.
    + apply Hadd. unfold in_range in *; lia.
Qed.

Lemma try_int_sub_us_neg L R l r : ity_ok L -> ity_ok R ->
  isigned L = false -> isigned R = true -> in_range L l -> in_range R r -> r < 0 ->
  try_int_sub L R l r = add_res L l (l - r).
Proof.
  intros HL HR SL SR Hl Hr Hn. unfold try_int_sub, int_cast_a, is_negative.
  rewrite SL, SR. cbn [negb].
  replace (r <? 0) with true by lia.
  destruct (common3u_facts L (unsigned_type R) HL (unsigned_type_ok R HR) SL eq_refl)
    as (H1 & H2 & H3 & H4 & H5 & H6 & H7).
  set (T := common3 t_uint L (unsigned_type R)) in *.
  destruct (minus1_sub R r HR SR Hr Hn) as [Hd Hdr]. rewrite Hd. cbn [obind snd].
  rewrite nvb_unsigned_type in H5. cbn [unsigned_type iwidth] in H7.
  pose proof (in_range_unsigned_nonneg L l SL Hl).
  assert (in_range T l) by eauto using in_range_nonneg.
  assert (in_range T (-1 - r)).
  { apply (in_range_nonneg R); auto; [|lia]. pose proof (iwidth_nvb_signed R SR). lia. }
  assert (in_range T (imax L)).
  { eapply (in_range_nonneg L); eauto using imax_range. rewrite imax_nvb. usegs. lia. }
  rewrite (wrap_id T l), (wrap_id T (-1 - r)), (wrap_id T (imax L)) by assumption.
  unfold csub, cge. rewrite cbin_same by assumption. rewrite promo_wide by assumption.
  assert (in_range T (imax L - l)) by (unfold in_range in Hl; rng).
  rewrite norm_in by assumption. cbn [obind].
  rewrite crel_same by assumption. rewrite Z.geb_leb.
  destruct (Z.leb_spec (imax L - l) (-1 - r)); cbn [negb].
  - rewrite add_res_false; [reflexivity|]. unfold in_range. lia.
  - rewrite cbin_same; auto using wrap_range.
    rewrite promo_wide by assumption. rewrite norm_unsigned by assumption. cbn [obind snd].
    assert (in_range L (l - r)) by (unfold in_range in *; lia).
    rewrite add_res_true by assumption. f_equal. f_equal.
    destruct (wrap_cong T r H1) as [k Hk].
    rewrite wrap_wrap by assumption.
    apply (cast_back L T _ _ (-k)); auto. rewrite Hk. ring.
Qed.

Lemma try_int_sub_su_wide L R l r : ity_ok L -> ity_ok R ->
  isigned L = true -> isigned R = false -> nvb L < nvb R -> in_range L l -> in_range R r ->
  try_int_sub L R l r = add_res L l (l - r).
Proof.
  intros HL HR SL SR Hw Hl Hr. unfold try_int_sub, int_cast_a.
  rewrite SL, SR. cbn [negb].
  replace (nvb R <=? nvb L) with false by lia.
  destruct (common2u_facts R HR SR) as (H1 & H2 & H3 & H4 & H5).
  set (T := common2 t_uint R) in *.
  pose proof (in_range_unsigned_nonneg R r SR Hr).
  assert (in_range T r) by eauto using in_range_nonneg.
  rewrite (wrap_id T r) by assumption.
  unfold csub. rewrite cbin_same; auto using wrap_range. rewrite promo_wide by assumption.
  rewrite norm_unsigned by assumption. cbn [obind snd].
  assert (HT := pow_nvb_le L T HL ltac:(lia)).
  assert (2 ^ (nvb L + 1) <= 2 ^ nvb T) by (apply Z.pow_le_mono_r; lia).
  assert (E2 : 2 ^ (nvb L + 1) = 2 * 2 ^ nvb L).
  { pose proof (nvb_pos L HL). rewrite Z.pow_add_r by lia. lia. }
  assert (Hd : wrap T (wrap T l - wrap T (imin L)) = l - imin L).
  { destruct (wrap_cong T l H1) as [k Hk]. destruct (wrap_cong T (imin L) H1) as [m Hm].
    apply (wrap_eq_of_cong T _ _ (k - m)); [assumption| |rewrite Hk, Hm; ring].
    clear - SL H2 H Hl E2 H0 HL H6. rng. }
  assert (HdT : in_range T (l - imin L)) by (rewrite <- Hd; now apply wrap_range).
  rewrite Hd, (wrap_id T (l - imin L)) by assumption.
  unfold cgt. rewrite crel_same by assumption. rewrite Z.gtb_ltb.
  destruct (Z.ltb_spec (l - imin L) r); cbn [negb].
  - rewrite add_res_false; [reflexivity|]. unfold in_range; lia.
  - rewrite cbin_same; auto using wrap_range.
    rewrite promo_wide by assumption. rewrite norm_unsigned by assumption. cbn [obind snd].
    assert (in_range L (l - r)) by (unfold in_range in *; lia).
    rewrite add_res_true by assumption. f_equal. f_equal.
    destruct (wrap_cong T l H1) as [k Hk].
    pose proof (iwidth_nvb_signed L SL). pose proof (iwidth_nvb_unsigned T H2).
    rewrite wrap_wrap by (auto; lia).
    apply (cast_back L T _ _ k); auto; [lia|]. rewrite Hk. ring.
Qed.

Lemma try_int_sub_spec L R l r : ity_ok L -> ity_ok R -> in_range L l -> in_range R r ->
  try_int_sub L R l r = add_res L l (l - r).
Proof.
  intros HL HR Hl Hr.
  destruct (isigned L) eqn:SL, (isigned R) eqn:SR.
  - unfold try_int_sub. rewrite SL, SR. cbn [negb]. now apply try_int_sub_ss_spec.
  - destruct (Z_lt_le_dec (nvb L) (nvb R)).
    + now apply try_int_sub_su_wide.
    + unfold try_int_sub, int_cast_a. rewrite SL, SR. cbn [negb].
      replace (nvb R <=? nvb L) with true by lia.
      pose proof (in_range_unsigned_nonneg R r SR Hr).
      assert (in_range L r) by eauto using in_range_nonneg.
      rewrite wrap_id by assumption. now apply try_int_sub_ss_spec.
  - destruct (Z_lt_le_dec r 0).
    + now apply try_int_sub_us_neg.
    + unfold try_int_sub, int_cast_a, is_negative. rewrite SL, SR. cbn [negb].
      replace (r <? 0) with false by lia.
      pose proof (to_unsigned_nonneg R r HR Hr l0).
      rewrite wrap_id by auto using unsigned_type_ok.
      now apply try_int_sub_uu_spec; auto using unsigned_type_ok.
  - unfold try_int_sub. rewrite SL, SR. cbn [negb]. now apply try_int_sub_uu_spec.
Qed.

(* ------------------------------------------------------------------ *)
(* multiplication *)

Lemma div_le_iff a b l : 0 < b -> (l <= a / b <-> l * b <= a).
Proof.
  intros Hb. split; intros H.
  - pose proof (Z.mul_div_le a b Hb). nia.
  - apply Z.div_le_lower_bound; lia.
Qed.

Lemma quot_pp a b l : 0 <= a -> 0 < b -> (l <= Z.quot a b <-> l * b <= a).
Proof. intros. rewrite Z.quot_div_nonneg by lia. now apply div_le_iff. Qed.

Lemma quot_np a b l : a <= 0 -> 0 < b -> (Z.quot a b <= l <-> a <= l * b).
Proof.
  intros. replace a with (- (- a)) at 1 by lia. rewrite Z.quot_opp_l by lia.
  pose proof (quot_pp (- a) b (- l)). lia.
Qed.

Lemma quot_nn a b l : a <= 0 -> b < 0 -> (l <= Z.quot a b <-> a <= l * b).
Proof.
  intros. rewrite <- (Z.quot_opp_opp a b) by lia. pose proof (quot_pp (- a) (- b) l). lia.
Qed.

Lemma quot_pn a b l : 0 <= a -> b < 0 -> (Z.quot a b <= l <-> l * b <= a).
Proof.
  intros. rewrite <- (Z.quot_opp_opp a b) by lia. pose proof (quot_np (- a) (- b) l). lia.
Qed.

Lemma common3i_unsigned L R : ity_ok L -> ity_ok R -> isigned L = true -> isigned R = false ->
  isigned (common3 t_int L R) = false -> nvb L < nvb R.
Proof.
  intros HL HR SL SR H.
  destruct (common3i_facts L R HL HR) as (_ & _ & _ & _ & _ & _ & H7 & _).
  specialize (H7 H).
  destruct (common2_facts L R HL HR) as (_ & _ & _ & _ & _ & _ & _ & H8 & _).
  rewrite H7 in H8. specialize (H8 SL SR). lia.
Qed.

Lemma cast_mul L T l r : ity_ok L -> ity_ok T -> iwidth L <= iwidth T ->
  in_range L (l * r) -> wrap L (wrap T (wrap T l * wrap T r)) = l * r.
Proof.
  intros HL HT Hw Hp. rewrite wrap_mul by assumption.
  rewrite wrap_wrap by assumption. now apply wrap_id.
Qed.

Lemma try_int_mul_pp L R l r : ity_ok L -> ity_ok R -> in_range L l -> in_range R r ->
  0 < r -> 0 <= l -> try_int_mul L R l r = add_res L l (l * r).
Proof.
  intros HL HR Hl Hr Hr0 Hl0. unfold try_int_mul, int_cast_a.
  replace (r =? 0) with false by lia. cbn [negb].
  unfold is_negative. replace (r <? 0) with false by lia. replace (l <? 0) with false by lia.
  replace (if isigned R then false else false) with false by (destruct (isigned R); auto).
  replace (if isigned L then false else false) with false by (destruct (isigned L); auto).
  cbn [negb].
  destruct (common3i_facts L R HL HR) as (H1 & H2 & H3 & H4 & H5 & H6 & H7 & H8).
  set (T := common3 t_int L R) in *.
  assert (HM : 0 < imax L) by (rewrite imax_nvb; usegs; lia).
  assert (in_range T l) by eauto using in_range_nonneg.
  assert (in_range T r) by (apply (in_range_nonneg R); auto; lia).
  assert (in_range T (imax L)) by (apply (in_range_nonneg L); eauto using imax_range; lia).
  rewrite (wrap_id T l), (wrap_id T r), (wrap_id T (imax L)) by assumption.
  assert (Hq : in_range T (Z.quot (imax L) r)).
  { apply (in_range_nonneg L); auto; [apply Z.quot_pos; lia|].
    assert (0 <= Z.quot (imax L) r <= imax L).
    { split; [apply Z.quot_pos; lia|]. rewrite Z.quot_div_nonneg by lia.
      apply Z.div_le_upper_bound; nia. }
    pose proof (in_range_0 L HL). unfold in_range in *. lia. }
  rewrite cdiv_same by (try assumption; try lia; rewrite promo_wide; assumption).
  cbn [obind snd]. rewrite wrap_id by assumption.
  unfold cle. rewrite crel_same by assumption.
  pose proof (quot_pp (imax L) r l ltac:(lia) Hr0).
  destruct (Z.leb_spec l (Z.quot (imax L) r)).
  - assert (in_range L (l * r)).
    { pose proof (in_range_0 L HL). unfold in_range in *. nia. }
    unfold cmul. rewrite cbin_same by assumption. rewrite promo_wide by assumption.
    rewrite norm_in; [|apply (in_range_nonneg L); auto; nia|assumption].
    cbn [obind snd]. rewrite wrap_id by assumption. now rewrite add_res_true.
  - rewrite add_res_false; [reflexivity|]. unfold in_range. lia.
Qed.

Lemma try_int_mul_nps L R l r : ity_ok L -> ity_ok R -> in_range L l -> in_range R r ->
  isigned L = true -> isigned R = true ->
  0 < r -> l < 0 -> try_int_mul L R l r = add_res L l (l * r).
Proof.
  intros HL HR Hl Hr SL SR Hr0 Hl0. unfold try_int_mul, int_cast_a.
  replace (r =? 0) with false by lia. cbn [negb].
  unfold is_negative. rewrite SL, SR.
  replace (r <? 0) with false by lia. replace (l <? 0) with true by lia. cbn [negb].
  destruct (common3i_facts L R HL HR) as (H1 & H2 & H3 & H4 & H5 & H6 & H7 & H8).
  specialize (H8 SL SR).
  set (T := common3 t_int L R) in *.
  assert (HM : imin L < 0) by (rewrite imin_nvb, SL; usegs; lia).
  assert (in_range T l) by eauto using in_range_signed.
  assert (in_range T r) by eauto using in_range_signed.
  assert (in_range T (imin L)) by eauto using in_range_signed, imin_range.
  rewrite (wrap_id T l), (wrap_id T r), (wrap_id T (imin L)) by assumption.
  pose proof (quot_np (imin L) r) as Q.
  assert (Hq : in_range T (Z.quot (imin L) r)).
  { apply (in_range_signed L); auto.
    assert (imin L <= Z.quot (imin L) r).
    { apply Z.nlt_ge. intros Hlt. assert (Z.quot (imin L) r <= imin L - 1) as G by lia.
      apply Q in G; [nia|lia|lia]. }
    assert (Z.quot (imin L) r <= 0) by (apply Q; lia).
    pose proof (in_range_0 L HL). unfold in_range in *. lia. }
  rewrite cdiv_same by (try assumption; try lia; rewrite promo_wide; assumption).
  cbn [obind snd]. rewrite wrap_id by assumption.
  unfold cge. rewrite crel_same by assumption. rewrite Z.geb_leb.
  specialize (Q l ltac:(lia) Hr0).
  destruct (Z.leb_spec (Z.quot (imin L) r) l).
  - assert (in_range L (l * r)).
    { pose proof (in_range_0 L HL). unfold in_range in *. nia. }
    unfold cmul. rewrite cbin_same by assumption. rewrite promo_wide by assumption.
    rewrite norm_in; [|apply (in_range_signed L); auto; nia|assumption].
    cbn [obind snd]. rewrite wrap_id by assumption. now rewrite add_res_true.
  - rewrite add_res_false; [reflexivity|]. unfold in_range. lia.
Qed.

Lemma cmul_cast_back L T l r : ity_ok L -> ity_ok T -> 32 <= iwidth T ->
  iwidth L <= iwidth T -> in_range L (l * r) ->
  (isigned T = true -> in_range T l /\ in_range T r /\ nvb L <= nvb T) ->
  (let* p := cmul (T, wrap T l) (T, wrap T r) in Some (true, wrap L (snd p)))
  = Some (true, l * r).
Proof.
  intros HL HT Hw HwL Hp HS. unfold cmul. rewrite cbin_same; auto using wrap_range.
  rewrite promo_wide by assumption.
  destruct (isigned T) eqn:ST.
  - destruct (HS eq_refl) as (? & ? & ?). rewrite !(wrap_id T) by assumption.
    rewrite norm_in; [|apply (in_range_signed L); auto|assumption].
    cbn [obind snd]. now rewrite wrap_id.
  - rewrite norm_unsigned by assumption. cbn [obind snd]. now rewrite cast_mul.
Qed.

Lemma try_int_mul_npu L R l r : ity_ok L -> ity_ok R -> in_range L l -> in_range R r ->
  isigned L = true -> isigned R = false ->
  0 < r -> l < 0 -> try_int_mul L R l r = add_res L l (l * r).
Proof.
  intros HL HR Hl Hr SL SR Hr0 Hl0. unfold try_int_mul, int_cast_a.
  replace (r =? 0) with false by lia. cbn [negb].
  unfold is_negative. rewrite SL, SR.
  replace (l <? 0) with true by lia. cbn [negb].
  destruct (common3i_facts L R HL HR) as (H1 & H2 & H3 & H4 & H5 & H6 & H7 & H8).
  set (T := common3 t_int L R) in *.
  assert (HM : 0 < imax L) by (rewrite imax_nvb; usegs; lia).
  assert (HMn : imin L = - imax L - 1) by (rewrite imax_nvb, imin_nvb, SL; lia).
  assert (HrT : in_range T r) by (apply (in_range_nonneg R); auto; lia).
  assert (HxT : in_range T (imax L)) by (apply (in_range_nonneg L); eauto using imax_range; lia).
  rewrite (wrap_id T (imax L)), (wrap_id T r) by assumption.
  unfold cle. rewrite crel_same by assumption.
  destruct (Z.leb_spec r (imax L)).
  - (* r <= max *)
    assert (HrL : in_range L r) by (unfold in_range; lia).
    rewrite (wrap_id L r) by assumption.
    pose proof (quot_np (imin L) r) as Q.
    assert (Hq0 : imin L <= Z.quot (imin L) r <= -1).
    { split.
      - apply Z.nlt_ge. intros Hlt. assert (Z.quot (imin L) r <= imin L - 1) as G by lia.
        apply Q in G; [nia|lia|lia].
      - apply Q; lia. }
    assert (HqL : in_range L (Z.quot (imin L) r)) by (unfold in_range; lia).
    assert (HmP : in_range (promo L) (imin L)) by auto using in_range_promo, imin_range.
    rewrite cdiv_same by (rewrite ?promo_idem; auto using promo_ok, in_range_promo; lia).
    cbn [obind snd].
    assert (Hcmp : cge (T, wrap T l) (T, wrap T (Z.quot (imin L) r)) = (Z.quot (imin L) r <=? l)).
    { unfold cge. rewrite crel_same by auto using wrap_range. rewrite Z.geb_leb.
      destruct (isigned T) eqn:ST.
      - rewrite !wrap_id by eauto using in_range_signed. reflexivity.
      - pose proof (common3i_unsigned L R HL HR SL SR ST).
        assert (E : forall x, imin L <= x <= -1 -> wrap T x = x + 2 ^ iwidth T).
        { intros x Hx. apply (wrap_eq_of_cong T _ _ (-1)); [assumption| |ring].
          rewrite unsigned_range by assumption.
          assert (2 ^ nvb L <= 2 ^ iwidth T).
          { pose proof (nvb_pos L HL). apply Z.pow_le_mono_r; [lia|].
            rewrite (iwidth_nvb_unsigned T ST). lia. }
          rewrite imax_nvb in *. lia. }
        rewrite !E by (try (unfold in_range in Hl); lia). lia. }
    rewrite Hcmp. specialize (Q l ltac:(lia) Hr0).
    destruct (Z.leb_spec (Z.quot (imin L) r) l).
    + assert (in_range L (l * r)).
      { unfold in_range. clear Hcmp. split; [now apply Q|]. assert (l * r < 0) by nia. lia. }
      rewrite add_res_true by assumption.
      rewrite <- (wrap_id T r) at 1 by assumption.
      rewrite cmul_cast_back; auto.
      intros ST. split; [apply (in_range_signed L); assumption|split; assumption].
    + rewrite add_res_false; [reflexivity|]. unfold in_range. lia.
  - (* r > max *)
    assert (HoneT : in_range T 1).
    { pose proof (pow_nvb_pos T H1). rewrite in_range_nvb. destruct (isigned T); lia. }
    assert (in_range T (r - 1)).
    { pose proof (in_range_0 T H1). unfold in_range in *. lia. }
    unfold csub at 1. rewrite cbin_same by assumption. rewrite promo_wide by assumption.
    rewrite norm_in by assumption. cbn [obind].
    destruct (minus1_sub L (imin L) HL SL (imin_range L HL)) as [Hd Hdr]; [lia|].
    rewrite Hd. cbn [obind snd].
    replace (-1 - imin L) with (imax L) by lia.
    rewrite (wrap_id T (imax L)) by assumption.
    rewrite crel_same by assumption. rewrite wrap_m1 by assumption.
    unfold in_range in Hl.
    destruct (Z.leb_spec (r - 1) (imax L)).
    + destruct (Z.eqb_spec l (-1)).
      * subst l. rewrite add_res_true by (unfold in_range; lia). repeat f_equal; lia.
      * rewrite add_res_false; [reflexivity|]. unfold in_range. nia.
    + rewrite add_res_false; [reflexivity|]. unfold in_range. nia.
Qed.

Lemma try_int_mul_pn L R l r : ity_ok L -> ity_ok R -> in_range L l -> in_range R r ->
  r < 0 -> 0 <= l -> try_int_mul L R l r = add_res L l (l * r).
Proof.
  intros HL HR Hl Hr Hr0 Hl0.
  assert (SR : isigned R = true).
  { destruct (isigned R) eqn:E; [reflexivity|]. apply in_range_unsigned_nonneg in Hr; [lia|assumption]. }
  unfold try_int_mul, int_cast_a.
  replace (r =? 0) with false by lia. cbn [negb].
  unfold is_negative. rewrite SR.
  replace (r <? 0) with true by lia. replace (l <? 0) with false by lia. cbn [negb].
  destruct (isigned L) eqn:SL; cbn [negb].
  - destruct (common3i_facts L R HL HR) as (H1 & H2 & H3 & H4 & H5 & H6 & H7 & H8).
    specialize (H8 SL SR).
    set (T := common3 t_int L R) in *.
    assert (HM : imin L < 0) by (rewrite imin_nvb, SL; usegs; lia).
    assert (HMx : imax L = - imin L - 1) by (rewrite imax_nvb, imin_nvb, SL; lia).
    rewrite wrap_m1 by assumption.
    destruct (Z.eqb_spec r (-1)); cbn [negb].
    + subst r. unfold cneg. cbn [fst snd].
      assert (in_range L (- l)) by (unfold in_range in *; lia).
      rewrite norm_in by auto using in_range_promo, promo_ok. cbn [obind snd].
      rewrite wrap_id by assumption. rewrite add_res_true; [f_equal; f_equal; lia|].
      replace (l * -1) with (- l) by lia. assumption.
    + assert (in_range T l) by eauto using in_range_signed.
      assert (in_range T r) by eauto using in_range_signed.
      assert (in_range T (imin L)) by eauto using in_range_signed, imin_range.
      rewrite (wrap_id T l), (wrap_id T r), (wrap_id T (imin L)) by assumption.
      pose proof (quot_nn (imin L) r) as Q.
      assert (Hq : in_range T (Z.quot (imin L) r)).
      { apply (in_range_signed L); auto.
        assert (0 <= Z.quot (imin L) r) by (apply Q; lia).
        assert (Z.quot (imin L) r <= imax L).
        { apply Z.nlt_ge. intros Hlt. assert (imax L + 1 <= Z.quot (imin L) r) as G by lia.
          apply Q in G; [|lia|lia]. nia. }
        pose proof (in_range_0 L HL). unfold in_range in *. lia. }
      rewrite cdiv_same by (try assumption; try lia; rewrite promo_wide; assumption).
      cbn [obind snd]. rewrite wrap_id by assumption.
      unfold cle. rewrite crel_same by assumption.
      specialize (Q l ltac:(lia) Hr0).
      destruct (Z.leb_spec l (Z.quot (imin L) r)).
      * assert (in_range L (l * r)).
        { pose proof (in_range_0 L HL). unfold in_range in *. nia. }
        unfold cmul. rewrite cbin_same by assumption. rewrite promo_wide by assumption.
        rewrite norm_in; [|apply (in_range_signed L); auto; nia|assumption].
        cbn [obind snd]. rewrite wrap_id by assumption. now rewrite add_res_true.
      * rewrite add_res_false; [reflexivity|]. unfold in_range. lia.
  - destruct (Z.eqb_spec l 0).
    + subst l. rewrite add_res_true; [reflexivity|]. now apply in_range_0.
    + rewrite add_res_false; [reflexivity|]. intros Hc.
      apply (in_range_unsigned_nonneg L _ SL) in Hc. nia.
Qed.

Lemma try_int_mul_nn L R l r : ity_ok L -> ity_ok R -> in_range L l -> in_range R r ->
  r < 0 -> l < 0 -> try_int_mul L R l r = add_res L l (l * r).
Proof.
  intros HL HR Hl Hr Hr0 Hl0.
  assert (SR : isigned R = true).
  { destruct (isigned R) eqn:E; [reflexivity|]. apply in_range_unsigned_nonneg in Hr; [lia|assumption]. }
  assert (SL : isigned L = true).
  { destruct (isigned L) eqn:E; [reflexivity|]. apply in_range_unsigned_nonneg in Hl; [lia|assumption]. }
  unfold try_int_mul, int_cast_a.
  replace (r =? 0) with false by lia. cbn [negb].
  unfold is_negative. rewrite SR, SL.
  replace (r <? 0) with true by lia. replace (l <? 0) with true by lia. cbn [negb].
  destruct (common3i_facts L R HL HR) as (H1 & H2 & H3 & H4 & H5 & H6 & H7 & H8).
  specialize (H8 SL SR).
  set (T := common3 t_int L R) in *.
  assert (HM : imin L < 0) by (rewrite imin_nvb, SL; usegs; lia).
  assert (HMx : imax L = - imin L - 1) by (rewrite imax_nvb, imin_nvb, SL; lia).
  assert (in_range T l) by eauto using in_range_signed.
  assert (in_range T r) by eauto using in_range_signed.
  assert (in_range T (imax L)) by eauto using in_range_signed, imax_range.
  rewrite (wrap_id T l), (wrap_id T r), (wrap_id T (imax L)) by assumption.
  pose proof (quot_pn (imax L) r) as Q.
  assert (Hq : in_range T (Z.quot (imax L) r)).
  { apply (in_range_signed L); auto.
    assert (Z.quot (imax L) r <= 0) by (apply Q; lia).
    assert (imin L <= Z.quot (imax L) r).
    { apply Z.nlt_ge. intros Hlt. assert (Z.quot (imax L) r <= imin L - 1) as G by lia.
      apply Q in G; [|lia|lia]. nia. }
    pose proof (in_range_0 L HL). unfold in_range in *. lia. }
  rewrite cdiv_same by (try assumption; try lia; rewrite promo_wide; assumption).
  cbn [obind snd]. rewrite wrap_id by assumption.
  unfold cge. rewrite crel_same by assumption. rewrite Z.geb_leb.
  specialize (Q l ltac:(lia) Hr0).
  destruct (Z.leb_spec (Z.quot (imax L) r) l).
  - assert (in_range L (l * r)).
    { pose proof (in_range_0 L HL). unfold in_range in *. nia. }
    unfold cmul. rewrite cbin_same by assumption. rewrite promo_wide by assumption.
    rewrite norm_in; [|apply (in_range_signed L); auto; nia|assumption].
    cbn [obind snd]. rewrite wrap_id by assumption. now rewrite add_res_true.
  - rewrite add_res_false; [reflexivity|]. unfold in_range. lia.
Qed.

Lemma try_int_mul_spec L R l r : ity_ok L -> ity_ok R -> in_range L l -> in_range R r ->
  try_int_mul L R l r = add_res L l (l * r).
Proof.
  intros HL HR Hl Hr.
  destruct (Z.eq_dec r 0) as [->|Hr0].
  { unfold try_int_mul. cbn [negb Z.eqb]. rewrite Z.mul_0_r.
    rewrite add_res_true by now apply in_range_0. reflexivity. }
  destruct (Z_lt_le_dec r 0), (Z_lt_le_dec l 0).
  - now apply try_int_mul_nn.
  - now apply try_int_mul_pn.
  - assert (SL : isigned L = true).
    { destruct (isigned L) eqn:E; [reflexivity|]. apply in_range_unsigned_nonneg in Hl; [lia|assumption]. }
    destruct (isigned R) eqn:SR.
    + apply try_int_mul_nps; auto; lia.
    + apply try_int_mul_npu; auto; lia.
  - apply try_int_mul_pp; auto; lia.
Qed.

Lemma add_res_checked L old x : checked_outcome L old x (add_res L old x).
Proof.
  unfold checked_outcome, add_res. rewrite representable_in_range.
  destruct (in_rangeb L x) eqn:E.
  - left. split; [now apply in_rangeb_spec|reflexivity].
  - right. split; [now apply in_rangeb_false|reflexivity].
Qed.
