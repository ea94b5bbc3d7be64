From Coq Require Import ZArith Lia Bool List ZifyBool.
From Verif Require Import CInt IntModel IntSpec IntProofs IntProofs3.
From Verif Require Import PixelBoxModel PixelBoxSpec BitMediumModel BitMediumSpec BitMediumProofs BitMediumProofs2.
From Verif Require Import IntBitCopyProofs IntBitCopyProofs2.
From Verif Require Import ArrLib PixelBufModel PixelBufSpec PixelBufProofs PixelBufProofs2.
From Verif Require Import PackedPixelModel PackedPixelSpec PackedPixelProofs.
Import ListNotations.
Open Scope Z_scope.

Lemma unpacked_width T N : ity_ok T -> 32 <= iwidth (unpacked_type T N).
Proof.
  intros H. pose proof (promo_width T H). unfold unpacked_type. destruct (N <=? nvb (promo T)); cbn; lia.
Qed.

Lemma packed_mod T n v : 0 <= n -> 0 <= v < 2 ^ n -> packed_form T n v mod 2 ^ n = v.
Proof.
  intros Hn Hv. unfold packed_form. destruct (isigned T && (n =? iwidth T) && (2 ^ (n - 1) <=? v)).
  - symmetry. apply Z.mod_unique with (q := -1); lia.
  - now apply Z.mod_small.
Qed.

Lemma word_nth (l : list Z) i : 0 <= i -> word l i = nth_error l (Z.to_nat i).
Proof. intros H. unfold word. now replace (0 <=? i) with true by lia. Qed.

Lemma vals_ok_length fs vs : vals_ok fs vs -> length vs = length fs.
Proof. induction 1; cbn [length]; lia. Qed.

Section Format.
  Variable f : packed_format.
  Variable n : Z.
  Hypothesis Hf : format_ok f n.

  Notation V := (value_type f).
  Notation T := (transf_type f).
  Notation fs := (pf_fields f).
  Notation al := (pf_alpha f && pf_alpha_first f).
  Notation rv := (pf_reverse f).

  Lemma fmt_BD : 1 <= pf_B f <= iwidth (pf_W f) /\ 1 <= pf_D f /\ pf_D f * pf_B f < 2 ^ 31.
  Proof.
    pose proof (fo_static _ _ Hf) as H. unfold static_ok in H. rewrite !andb_true_iff in H.
    destruct H as (((((H1 & H2) & H3) & H4) & H5) & H6).
    assert (pf_B f > 0) by lia. assert (pf_D f > 0) by lia.
    rewrite Z.quot_div_nonneg in H4 by (cbn; lia).
    apply Z.leb_le in H4. assert (pf_B f * (imax t_int / pf_B f) <= imax t_int) by (apply Z.mul_div_le; lia).
    change (imax t_int) with (2 ^ 31 - 1) in *. split; [lia|]. split; [lia|]. nia.
  Qed.

  Lemma fmt_V : ity_ok V /\ 32 <= iwidth V /\ pf_B f * pf_D f <= nvb V.
  Proof.
    pose proof fmt_BD as (H1 & H2 & _). pose proof (fo_static _ _ Hf) as H. unfold static_ok in H. rewrite !andb_true_iff in H.
    destruct H as (((((_ & _) & _) & _) & H5) & _). unfold bits_per_pixel in H5.
    destruct (unpacked_type_ok (pf_S f) (pf_D f * pf_B f)) as [A1 A2]; [apply (fo_S _ _ Hf)|nia|].
    split; [exact A1|]. split; [apply unpacked_width; apply (fo_S _ _ Hf)|]. unfold value_type, bits_per_pixel. lia.
  Qed.

  Lemma fmt_fields : Forall field_ok fs /\ total fs <= pf_B f * pf_D f /\ total fs < 2 ^ 31.
  Proof.
    pose proof (fo_static _ _ Hf) as H. unfold static_ok in H. rewrite !andb_true_iff in H.
    destruct H as [_ H]. apply valid_bit_fields_spec in H; [|exact (fo_int _ _ Hf)].
    destruct H as (A & B & C). split; [assumption|]. unfold bits_per_pixel in B. lia.
  Qed.

  Lemma fmt_T : ity_ok T /\ 1 <= n <= iwidth T.
  Proof.
    pose proof (fo_n _ _ Hf) as H. unfold transf_width, transf_bits in H. unfold transf_type.
    destruct (fo_T8 _ _ Hf) as [A1 A2]. destruct (fo_T16 _ _ Hf) as [B1 B2].
    destruct (Z.leb_spec (bit_depth f) 8).
    - assert (n = 8) by congruence. split; [assumption|lia].
    - destruct (Z.leb_spec (bit_depth f) 16); [|discriminate].
      assert (n = 16) by congruence. split; [assumption|lia].
  Qed.

  Lemma fmt_width g : In g fs -> fwidth g <= n.
  Proof.
    intros Hg. pose proof (fo_n _ _ Hf) as H. unfold transf_width, transf_bits, bit_depth, widest_bit_field in H.
    destruct (widest_loop_spec fs 0) as (_ & B & _). specialize (B g Hg).
    destruct (Z.leb_spec (widest_loop fs 0) 8); [assert (n = 8) by congruence; lia|].
    destruct (Z.leb_spec (widest_loop fs 0) 16); [assert (n = 16) by congruence; lia|discriminate].
  Qed.

  (* the field of a channel *)
  Lemma channel_field i : 0 <= i < num_channels f ->
    exists j g, map_channel_index f i = Some (Z.of_nat j) /\ Z.of_nat j = fidx (num_channels f) al rv i /\
      nth_error fs j = Some g /\ get_channel_width f i = Some (fwidth g) /\
      get_channel_shift f i = Some (shift_at fs j) /\ 1 <= fwidth g <= n /\
      0 <= shift_at fs j /\ shift_at fs j + fwidth g <= pf_B f * pf_D f.
  Proof.
    intros Hi. pose proof (fidx_range (num_channels f) al rv i Hi) as Hr.
    pose proof fmt_fields as (F1 & F2 & F3).
    exists (Z.to_nat (fidx (num_channels f) al rv i)).
    destruct (nth_error fs (Z.to_nat (fidx (num_channels f) al rv i))) as [g|] eqn:E;
      [|apply nth_error_None in E; unfold num_channels in *; lia].
    pose proof (nth_field_ok fs _ g F1 E) as ([G1 G2] & G3 & G4).
    pose proof (fmt_width g (nth_error_In _ _ E)).
    assert (M : map_channel_index f i = Some (Z.of_nat (Z.to_nat (fidx (num_channels f) al rv i)))).
    { unfold map_channel_index. replace ((0 <=? i) && (i <? num_channels f)) with true by lia.
      rewrite Z2Nat.id by lia. reflexivity. }
    exists g. split; [assumption|]. split; [lia|]. split; [reflexivity|].
    unfold get_channel_width, get_channel_shift. rewrite M. cbn [obind].
    rewrite (get_width_ok _ _ _ E), (get_shift_ok _ _ _ F1 F3 E).
    split; [reflexivity|]. split; [reflexivity|]. lia.
  Qed.

  Lemma get_component_ok i p : 0 <= i < num_channels f -> 0 <= p < 2 ^ (pf_B f * pf_D f) ->
    get_component f i p = nth_error (tray_pixel f n (channels f n p)) (Z.to_nat i).
  Proof.
    intros Hi Hp. destruct (channel_field i Hi) as (j & g & E1 & E2 & E3 & E4 & E5 & E6 & E7 & E8).
    pose proof fmt_V as (V1 & V2 & V3). pose proof fmt_T as (T1 & T2).
    assert (nvb V <= iwidth V) by apply nvb_width.
    unfold get_component. rewrite E4, E5. cbn [obind].
    rewrite cshr_small by (try assumption; lia). cbn [obind]. rewrite int_mask_spec by (try assumption; lia). cbn [obind].
    assert (2 ^ (pf_B f * pf_D f) <= 2 ^ nvb V) by (apply Z.pow_le_mono_r; lia).
    assert (0 < 2 ^ shift_at fs j) by (apply Z.pow_pos_nonneg; lia).
    assert (0 <= p / 2 ^ shift_at fs j < 2 ^ nvb V).
    { split; [apply Z.div_pos; lia|]. apply Z.le_lt_trans with p; [|lia]. apply Z.div_le_upper_bound; [lia|nia]. }
    rewrite cand_mask by (try assumption; lia). cbn [snd].
    set (v := (p / 2 ^ shift_at fs j) mod 2 ^ fwidth g).
    assert (Hv : 0 <= v < 2 ^ fwidth g) by (apply Z.mod_pos_bound; apply Z.pow_pos_nonneg; lia).
    assert (2 ^ fwidth g <= 2 ^ nvb V) by (apply Z.pow_le_mono_r; lia).
    rewrite wrap_small by (assumption || lia). rewrite (fo_n _ _ Hf). cbn [obind].
    rewrite <- (packed_small V (fwidth g) v) at 1 by (assumption || lia).
    rewrite int_to_int_spec by (try assumption; lia).
    unfold tray_pixel. rewrite nth_error_map. unfold channels.
    assert (L : length (from_fields n fs (field_values fs p)) = length fs)
      by (unfold from_fields; rewrite map2_length; [reflexivity|now rewrite field_values_length]).
    rewrite nth_canonical by (rewrite L; exact Hi). rewrite L.
    change (Z.of_nat (length fs)) with (num_channels f). rewrite <- E2, Nat2Z.id.
    unfold from_fields. rewrite (nth_error_map2 _ _ _ _ g v); [reflexivity|assumption|].
    now apply nth_field_values.
  Qed.

  Lemma channels_length p : length (channels f n p) = length fs.
  Proof.
    unfold channels. rewrite to_canonical_length. unfold from_fields.
    rewrite map2_length; [reflexivity|now rewrite field_values_length].
  Qed.

  Lemma get_components_ok p : 0 <= p < 2 ^ (pf_B f * pf_D f) -> forall k i, Z.of_nat k = num_channels f - i -> 0 <= i ->
    get_components f k i p = Some (skipn (Z.to_nat i) (tray_pixel f n (channels f n p))).
  Proof.
    intros Hp. assert (L : Z.of_nat (length (tray_pixel f n (channels f n p))) = num_channels f)
      by (unfold tray_pixel; rewrite map_length, channels_length; reflexivity).
    induction k as [|k IH]; intros i Hk Hi; cbn [get_components].
    - rewrite skipn_all2 by lia. reflexivity.
    - rewrite get_component_ok by (try assumption; lia).
      destruct (nth_error (tray_pixel f n (channels f n p)) (Z.to_nat i)) as [c|] eqn:E;
        [|apply nth_error_None in E; lia].
      cbn [obind]. rewrite IH by lia. cbn [obind]. f_equal.
      destruct (nth_error_split _ _ E) as (l1 & l2 & -> & L1). rewrite <- L1.
      replace (Z.to_nat (i + 1)) with (length l1 + 1)%nat by lia.
      rewrite !skipn_app, skipn_all, Nat.sub_diag. rewrite skipn_all2 by lia.
      replace (length l1 + 1 - length l1)%nat with 1%nat by lia. reflexivity.
  Qed.

  Lemma read_pixel_ok buf off p : 0 <= p < 2 ^ (pf_B f * pf_D f) ->
    stored (pf_W f) (pf_B f) (pf_D f) (pf_little f) buf off p ->
    read_pixel f buf off = Some (tray_pixel f n (channels f n p)).
  Proof.
    intros Hp Hs. unfold read_pixel. pose proof fmt_V as (V1 & V2 & V3). pose proof fmt_BD as (B1 & B2 & _).
    rewrite (read_compound_spec _ _ _ _ _ (fo_W _ _ Hf) V1 V2 B1 B2 V3 buf off p Hp Hs). cbn [obind].
    rewrite get_components_ok; [reflexivity|assumption|unfold num_channels; lia|lia].
  Qed.

  (* what is set *)
  Lemma to_fields_ok cs : channels_ok f n cs -> vals_ok fs (to_fields n fs (to_field_order al rv cs)).
  Proof.
    intros [L C]. pose proof fmt_fields as (F1 & _). pose proof fmt_T as (_ & T2).
    assert (L' : length fs = length (to_field_order al rv cs)) by (rewrite to_field_length; lia).
    assert (C' : Forall (fun c => 0 <= c < 2 ^ n) (to_field_order al rv cs)).
    { apply Forall_forall. intros c Hc. rewrite Forall_forall in C. apply C.
      unfold to_field_order in Hc. destruct rv; [apply in_rev in Hc|]; destruct al; try assumption;
      apply in_app_iff in Hc; (rewrite <- (firstn_skipn (length cs - 1) cs); apply in_app_iff; tauto). }
    assert (Hw : forall g, In g fs -> fwidth g <= n) by exact fmt_width.
    unfold to_fields, vals_ok. revert F1 L' C' Hw. generalize (to_field_order al rv cs). clear - T2.
    induction (pf_fields f) as [|g gs IH]; intros [|c l] F1 L' C' Hw; cbn [map2 length] in *; try discriminate; constructor.
    - apply Forall_cons_iff in C' as [Hc _]. apply Forall_cons_iff in F1 as [[G1 G2] _].
      apply unit_scale_range; lia.
    - apply IH; [now apply Forall_cons_iff in F1|lia|now apply Forall_cons_iff in C'|intros; apply Hw; now right].
  Qed.

  Lemma set_components_ok cs : channels_ok f n cs ->
    forall k i vs, Z.of_nat k = num_channels f - i -> 0 <= i -> vals_ok fs vs ->
    (forall i', 0 <= i' < num_channels f ->
       nth_error vs (Z.to_nat (fidx (num_channels f) al rv i')) =
       if i' <? i then nth_error (to_fields n fs (to_field_order al rv cs)) (Z.to_nat (fidx (num_channels f) al rv i'))
       else Some 0) ->
    set_components f k i (compound fs vs) (tray_pixel f n cs) = Some (represent f n cs).
  Proof.
    intros Hcs. pose proof (to_fields_ok cs Hcs) as Hw. destruct Hcs as [L C].
    pose proof fmt_V as (V1 & V2 & V3). pose proof fmt_T as (T1 & T2). pose proof fmt_fields as (F1 & F2 & F3).
    assert (Hnv : nvb V <= iwidth V) by apply nvb_width.
    assert (LW : forall vs, vals_ok fs vs -> length vs = length fs) by (intros ?; apply vals_ok_length).
    assert (Hpow : 2 ^ total fs <= 2 ^ nvb V) by (apply Z.pow_le_mono_r; lia).
    induction k as [|k IH]; intros i vs Hk Hi Hvs Hinv; cbn [set_components].
    - f_equal. unfold represent. f_equal. apply nth_error_ext; [rewrite !LW by assumption; reflexivity|].
      intros j Hj. rewrite LW in Hj by assumption.
      destruct (fidx_sur (num_channels f) al rv (Z.of_nat j)) as (i' & Hi' & E); [unfold num_channels; lia|].
      specialize (Hinv i' Hi'). rewrite E, Nat2Z.id in Hinv. rewrite Hinv.
      replace (i' <? i) with true by lia. reflexivity.
    - assert (Hin : 0 <= i < num_channels f) by lia.
      destruct (channel_field i Hin) as (j & g & E1 & E2 & E3 & E4 & E5 & E6 & E7 & E8).
      destruct (nth_error cs (Z.to_nat i)) as [c|] eqn:Ec;
        [|apply nth_error_None in Ec; unfold num_channels in *; lia].
      assert (Hc : 0 <= c < 2 ^ n) by (rewrite Forall_forall in C; apply C; eapply nth_error_In; eassumption).
      unfold rd. replace (0 <=? i) with true by lia. unfold tray_pixel at 1. rewrite nth_error_map, Ec. cbn [option_map obind].
      unfold set_component. rewrite E4, E5, (fo_n _ _ Hf). cbn [obind].
      rewrite int_to_int_spec by (try assumption; lia). cbn [obind].
      rewrite packed_small by (assumption || lia).
      pose proof (unit_scale_range n (fwidth g) c ltac:(lia) ltac:(lia) Hc) as Hu.
      set (u := unit_scale n (fwidth g) c) in *.
      assert (0 < 2 ^ shift_at fs j) by (apply Z.pow_pos_nonneg; lia).
      assert (Hs : 0 <= u * 2 ^ shift_at fs j < 2 ^ nvb V).
      { split; [nia|]. apply Z.lt_le_trans with (2 ^ fwidth g * 2 ^ shift_at fs j); [nia|].
        rewrite <- Z.pow_add_r by lia. apply Z.pow_le_mono_r; lia. }
      rewrite cshl_small by (try assumption; lia). cbn [obind].
      pose proof (compound_range fs vs F1 Hvs) as Hcr.
      rewrite cor_small by (try assumption; lia). cbn [snd].
      rewrite wrap_small; [|assumption|apply lor_lt; lia].
      pose proof (Hinv i Hin) as H0. rewrite Z.ltb_irrefl, <- E2, Nat2Z.id in H0.
      assert (Es : exists vs', set_nth vs j u = Some vs').
      { rewrite set_nth_some by (apply nth_error_Some; congruence). eauto. }
      destruct Es as [vs' Es].
      destruct (compound_set fs vs vs' j g u F1 Hvs E3 Hu H0 Es) as [Hvs' El]. rewrite El.
      apply IH; try lia; try assumption. intros i' Hi'.
      rewrite (nth_error_set_nth _ _ _ _ _ Es).
      destruct (Nat.eqb_spec (Z.to_nat (fidx (num_channels f) al rv i')) j) as [E|E].
      + assert (i' = i).
        { apply (fidx_inj (num_channels f) al rv); try assumption.
          pose proof (fidx_range (num_channels f) al rv i' Hi'). lia. }
        subst i'. replace (i <? i + 1) with true by lia. rewrite E. symmetry.
        unfold to_fields. rewrite (nth_error_map2 _ _ _ _ g c); [reflexivity|assumption|].
        rewrite <- Ec. replace j with (Z.to_nat (fidx (Z.of_nat (length cs)) al rv i)).
        * apply nth_field. unfold num_channels in *. lia.
        * rewrite L. change (Z.of_nat (length fs)) with (num_channels f). lia.
      + rewrite (Hinv i' Hi').
        assert (i' <> i).
        { intros ->. apply E. lia. }
        replace (i' <? i + 1) with (i' <? i) by lia. reflexivity.
  Qed.

  Lemma represent_range cs : channels_ok f n cs -> 0 <= represent f n cs < 2 ^ (pf_B f * pf_D f).
  Proof.
    intros Hcs. pose proof fmt_fields as (F1 & F2 & F3). pose proof (total_nonneg _ F1).
    pose proof (compound_range fs _ F1 (to_fields_ok cs Hcs)) as H1. unfold represent.
    assert (2 ^ total fs <= 2 ^ (pf_B f * pf_D f)) by (apply Z.pow_le_mono_r; lia). lia.
  Qed.

  Lemma set_all_ok cs : channels_ok f n cs ->
    set_components f (length fs) 0 0 (tray_pixel f n cs) = Some (represent f n cs).
  Proof.
    intros Hcs. rewrite <- (compound_zeros fs) at 2. apply set_components_ok; try assumption; try (unfold num_channels; lia).
    - pose proof fmt_fields as (F1 & _). clear - F1. induction F1 as [|g gs [G1 G2] _ IH]; cbn [map]; constructor.
      + split; [lia|]. apply Z.pow_pos_nonneg; lia.
      + exact IH.
    - intros i' Hi'. pose proof (fidx_range (num_channels f) al rv i' Hi'). replace (i' <? 0) with false by lia.
      rewrite nth_error_map. destruct (nth_error fs _) eqn:E; [reflexivity|].
      apply nth_error_None in E. unfold num_channels in *. lia.
  Qed.

  Lemma write_pixel_ok cs buf off : channels_ok f n cs -> 0 <= off -> off + pf_D f <= Z.of_nat (length buf) ->
    exists buf', write_pixel f (tray_pixel f n cs) buf off = Some buf' /\ length buf' = length buf /\
      stored (pf_W f) (pf_B f) (pf_D f) (pf_little f) buf' off (represent f n cs) /\
      forall k, ~ (off <= k < off + pf_D f) -> word buf' k = word buf k.
  Proof.
    intros Hcs Ho Hl. unfold write_pixel. rewrite set_all_ok by assumption. cbn [obind].
    pose proof fmt_V as (V1 & V2 & V3). pose proof fmt_BD as (B1 & B2 & _).
    apply write_compound_spec; try assumption; [apply (fo_W _ _ Hf)|now apply represent_range].
  Qed.

  (* as needed for the loops *)
  Definition enc (p : list Z) : Z := represent f n (map (fun v => v mod 2 ^ n) p).
  Definition okp (p : list Z) : Prop := exists cs, channels_ok f n cs /\ p = tray_pixel f n cs.

  Lemma enc_tray cs : channels_ok f n cs -> enc (tray_pixel f n cs) = represent f n cs.
  Proof.
    intros [_ C]. unfold enc, tray_pixel. rewrite map_map. f_equal. rewrite <- (map_id cs) at 2.
    apply map_ext_in. intros c Hc. rewrite Forall_forall in C. pose proof fmt_T. apply packed_mod; [lia|now apply C].
  Qed.

  Lemma stored_local b b' o o' q :
    (forall i, 0 <= i < pf_D f -> word b' (o' + i) = word b (o + i)) ->
    stored (pf_W f) (pf_B f) (pf_D f) (pf_little f) b o q ->
    stored (pf_W f) (pf_B f) (pf_D f) (pf_little f) b' o' q.
  Proof. intros H Hs i Hi. rewrite H by assumption. now apply Hs. Qed.

  Lemma fmt_write p b o : okp p -> 0 <= o -> o + pf_D f <= Z.of_nat (length b) ->
    exists b', write_pixel f p b o = Some b' /\ length b' = length b /\
      stored (pf_W f) (pf_B f) (pf_D f) (pf_little f) b' o (enc p) /\
      forall k, ~ (o <= k < o + pf_D f) -> word b' k = word b k.
  Proof.
    intros (cs & Hcs & ->) Ho Hl. rewrite enc_tray by assumption. now apply write_pixel_ok.
  Qed.
End Format.
