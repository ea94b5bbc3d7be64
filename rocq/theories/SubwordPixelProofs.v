From Coq Require Import ZArith Lia Bool List ZifyBool.
From Verif Require Import CInt IntModel IntSpec IntProofs IntProofs3.
From Verif Require Import PixelBoxModel PixelBoxSpec BitMediumModel BitMediumSpec BitMediumProofs BitMediumProofs2.
From Verif Require Import IntBitCopyProofs IntBitCopyProofs2.
From Verif Require Import ArrLib PixelBufModel PixelBufSpec PixelBufProofs PixelBufProofs2 RunSpec RunProofs.
From Verif Require Import PackedPixelModel PackedPixelSpec PackedPixelProofs PackedPixelProofs2.
From Verif Require Import SubwordPixelModel SubwordPixelSpec.
Import ListNotations.
Open Scope Z_scope.

(* ---- bits ---- *)

Lemma take_bits_ok V M w k : ity_ok V -> 32 <= iwidth V -> 0 <= w < 2 ^ nvb V -> 1 <= M <= nvb V -> 0 <= k -> k * M < iwidth V ->
  take_bits V M w (k * M) = Some (digit M k w).
Proof.
  intros HV H32 Hw HM Hk Hs. assert (0 <= k * M) by nia. unfold take_bits.
  rewrite cshr_small by (try assumption; lia). cbn [obind].
  rewrite int_mask_spec by (try assumption; lia). cbn [obind].
  assert (0 < 2 ^ (k * M)) by (apply Z.pow_pos_nonneg; lia).
  assert (0 <= w / 2 ^ (k * M) < 2 ^ nvb V).
  { split; [apply Z.div_pos; lia|]. apply Z.le_lt_trans with w; [|lia]. apply Z.div_le_upper_bound; nia. }
  rewrite cand_mask by (try assumption; lia). cbn [snd]. rewrite (Z.mul_comm k M). fold (digit M k w). f_equal.
  pose proof (digit_range M k w ltac:(lia)). assert (2 ^ M <= 2 ^ nvb V) by (apply Z.pow_le_mono_r; lia).
  apply wrap_small; [assumption|lia].
Qed.

(* digits of the number with the bits replaced *)
Definition replace_digit (T M k v w : Z) : Z :=
  Z.lor (Z.land w (Z.lxor (Z.ones T) (Z.ones M * 2 ^ (k * M)))) (v * 2 ^ (k * M)).

Lemma ones_testbit n k : 0 <= n -> 0 <= k -> Z.testbit (Z.ones n) k = (k <? n).
Proof.
  intros Hn Hk. destruct (Z.ltb_spec k n); [apply Z.ones_spec_low|apply Z.ones_spec_high]; lia.
Qed.

Lemma shifted_testbit v s k : 0 <= s -> 0 <= k -> Z.testbit (v * 2 ^ s) k = (s <=? k) && Z.testbit v (k - s).
Proof.
  intros Hs Hk. destruct (Z.leb_spec s k).
  - rewrite Z.mul_pow2_bits by lia. reflexivity.
  - rewrite Z.mul_pow2_bits_low by lia. reflexivity.
Qed.

Lemma replace_digit_bit T M k v w b : 0 < M -> 0 <= k -> (k + 1) * M <= T -> 0 <= w < 2 ^ T -> 0 <= v < 2 ^ M -> 0 <= b ->
  Z.testbit (replace_digit T M k v w) b = if (k * M <=? b) && (b <? (k + 1) * M) then Z.testbit v (b - k * M) else Z.testbit w b.
Proof.
  intros HM Hk HT Hw Hv Hb. unfold replace_digit.
  rewrite Z.lor_spec, Z.land_spec, Z.lxor_spec, !shifted_testbit, ones_testbit by nia.
  destruct (Z.leb_spec (k * M) b) as [H1|H1]; cbn [andb].
  - rewrite ones_testbit by lia. destruct (Z.ltb_spec b ((k + 1) * M)) as [H2|H2].
    + replace (b - k * M <? M) with true by nia. replace (b <? T) with true by lia. cbn [xorb andb].
      rewrite andb_false_r. reflexivity.
    + replace (b - k * M <? M) with false by nia. rewrite xorb_false_r.
      rewrite (testbit_small v M) by nia. rewrite orb_false_r.
      destruct (Z.ltb_spec b T); [apply andb_true_r|]. rewrite (testbit_small w T) by lia. reflexivity.
  - rewrite xorb_false_r, orb_false_r. replace (b <? T) with true by nia. apply andb_true_r.
Qed.

Lemma digit_ext M k a b : 0 <= M -> 0 <= k -> (forall i, k * M <= i < (k + 1) * M -> Z.testbit a i = Z.testbit b i) ->
  digit M k a = digit M k b.
Proof.
  intros HM Hk H. apply Z.bits_inj'. intros i Hi. rewrite !digit_bit by lia. destruct (Z.ltb_spec i M); [|reflexivity].
  cbn [andb]. apply H. lia.
Qed.

Lemma replace_digit_spec T M k v w : 0 < M -> 0 <= k -> (k + 1) * M <= T -> 0 <= w < 2 ^ T -> 0 <= v < 2 ^ M ->
  0 <= replace_digit T M k v w < 2 ^ T /\ digit M k (replace_digit T M k v w) = v /\
  forall j, 0 <= j -> j <> k -> digit M j (replace_digit T M k v w) = digit M j w.
Proof.
  intros HM Hk HT Hw Hv. assert (0 < 2 ^ (k * M)) by (apply Z.pow_pos_nonneg; nia).
  assert (Hnn : 0 <= replace_digit T M k v w).
  { unfold replace_digit. apply Z.lor_nonneg. split; [apply Z.land_nonneg; lia|nia]. }
  split; [split; [exact Hnn|]|split].
  - apply bits_small; [nia|exact Hnn|]. intros b Hb. rewrite replace_digit_bit by (try assumption; nia).
    replace (b <? (k + 1) * M) with false by lia. rewrite andb_false_r. apply testbit_small with T; nia.
  - apply Z.bits_inj'. intros i Hi. rewrite digit_bit by lia. destruct (Z.ltb_spec i M); cbn [andb].
    + rewrite replace_digit_bit by (try assumption; nia).
      replace ((k * M <=? i + M * k) && (i + M * k <? (k + 1) * M)) with true by nia. f_equal. nia.
    + symmetry. apply testbit_small with M; lia.
  - intros j Hj Hne. apply digit_ext; [lia|lia|]. intros i Hi. rewrite replace_digit_bit by (try assumption; nia).
    replace ((k * M <=? i) && (i <? (k + 1) * M)) with false; [reflexivity|]. symmetry. apply andb_false_iff.
    destruct (Z.lt_ge_cases j k); [left|right]; nia.
Qed.

Lemma put_bits_ok V T M v w k : ity_ok V -> 32 <= iwidth V -> T <= nvb V -> 0 < M -> 0 <= k -> (k + 1) * M <= T ->
  0 <= w < 2 ^ T -> 0 <= v < 2 ^ M -> put_bits V T M v w (k * M) = Some (replace_digit T M k v w).
Proof.
  intros HV H32 HT HM Hk HkM Hw Hv. assert (Hs : 0 <= k * M) by nia.
  assert (Hkm : k * M + M <= T) by lia. pose proof (nvb_width V) as Hnw.
  assert (P0 : 0 < 2 ^ (k * M)) by (apply Z.pow_pos_nonneg; lia).
  assert (P1 : 0 < 2 ^ M) by (apply Z.pow_pos_nonneg; lia).
  assert (P2 : 2 ^ T <= 2 ^ nvb V) by (apply Z.pow_le_mono_r; lia).
  assert (P3 : 2 ^ M * 2 ^ (k * M) <= 2 ^ T) by (rewrite <- Z.pow_add_r by lia; apply Z.pow_le_mono_r; lia).
  unfold put_bits. rewrite !int_mask_spec by (try assumption; lia). cbn [obind].
  rewrite cshl_small by (try assumption; nia). cbn [obind].
  rewrite cshl_small by (try assumption; nia). cbn [obind].
  replace (2 ^ T - 1) with (Z.ones T) by (rewrite Z.ones_equiv; lia).
  replace (2 ^ M - 1) with (Z.ones M) in * by (rewrite Z.ones_equiv; lia).
  set (m := Z.lxor (Z.ones T) (Z.ones M * 2 ^ (k * M))).
  assert (Ho : Z.ones M * 2 ^ (k * M) < 2 ^ T) by (rewrite Z.ones_equiv; nia).
  assert (Ho0 : 0 <= Z.ones M * 2 ^ (k * M)) by (rewrite Z.ones_equiv; nia).
  assert (HoT : 0 <= Z.ones T < 2 ^ T) by (rewrite Z.ones_equiv; lia).
  assert (Hm0 : 0 <= m) by (apply Z.lxor_nonneg; lia).
  assert (Hm : m < 2 ^ T).
  { apply bits_small; [lia|exact Hm0|]. intros b Hb. unfold m. rewrite Z.lxor_spec.
    rewrite (testbit_small (Z.ones T) T), (testbit_small (Z.ones M * 2 ^ (k * M)) T) by lia. reflexivity. }
  assert (Ex : cxor (V, Z.ones T) (V, Z.ones M * 2 ^ (k * M)) = (V, m)).
  { unfold cxor. cbn [fst snd]. rewrite uac_same by assumption.
    rewrite (wrap_small V (Z.ones T)), (wrap_small V (Z.ones M * _)) by (try assumption; lia). fold m.
    rewrite wrap_small by (try assumption; lia). reflexivity. }
  rewrite Ex.
  assert (Hl0 : 0 <= Z.land w m) by (apply Z.land_nonneg; lia).
  assert (Hl : Z.land w m < 2 ^ T).
  { apply bits_small; [lia|exact Hl0|]. intros b Hb. rewrite Z.land_spec, (testbit_small w T) by lia. reflexivity. }
  assert (Ea : cand (V, w) (V, m) = (V, Z.land w m)).
  { unfold cand. cbn [fst snd]. rewrite uac_same by assumption.
    rewrite (wrap_small V w), (wrap_small V m) by (try assumption; lia).
    rewrite wrap_small by (try assumption; lia). reflexivity. }
  rewrite Ea. cbn [snd]. rewrite (wrap_small V (Z.land w m)) by (try assumption; lia).
  assert (Hv2 : 0 <= v * 2 ^ (k * M) < 2 ^ T) by nia.
  rewrite cor_small by (try assumption; lia). cbn [snd]. rewrite wrap_small; [reflexivity|assumption|].
  pose proof (lor_lt (Z.land w m) (v * 2 ^ (k * M)) T ltac:(lia) ltac:(lia) Hv2). fold m. lia.
Qed.

(* ---- subword formats ---- *)

Lemma map_pixel_pos_ok n little p : 0 <= p < n -> map_pixel_pos n little p = Some (if little then p else n - 1 - p).
Proof. intros H. unfold map_pixel_pos. now replace ((0 <=? p) && (p <? n)) with true by lia. Qed.

Section Subword.
  Variable f : subword_format.
  Variable n : Z.
  Hypothesis Hf : s_format_ok f n.

  Notation V := (s_value_type f).
  Notation T := (s_transf_type f).
  Notation B := (sf_B f).
  Notation C := (sf_C f).
  Notation N := (sf_N f).
  Notation fs := (s_fields f).
  Notation al := (sf_alpha f && sf_alpha_first f).
  Notation rv := (sf_reverse f).
  Notation bpw := (N * (C * B)).

  Lemma sf_nums : 1 <= B /\ 1 <= N < 2 ^ 31 /\ 1 <= C * B /\ 1 <= bpw <= iwidth (sf_W f).
  Proof.
    pose proof (so_static _ _ Hf) as H. pose proof (so_C _ _ Hf) as HC. unfold s_static_ok in H. rewrite !andb_true_iff in H.
    destruct H as ((((H1 & H2) & H3) & H4) & H5). unfold s_bits_per_word, s_bits_per_pixel in *.
    assert (1 <= B) by lia. assert (1 <= N) by lia. assert (1 <= C * B) by nia.
    rewrite Z.quot_div_nonneg in H4 by (cbn; lia). apply Z.leb_le in H4.
    assert (imax t_int / (C * B) <= imax t_int) by (apply Z.div_le_upper_bound; [lia|cbn; nia]).
    change (imax t_int) with (2 ^ 31 - 1) in *. split; [lia|]. split; [lia|]. split; [lia|]. split; [nia|lia].
  Qed.

  Lemma sf_V : ity_ok V /\ 32 <= iwidth V /\ bpw <= nvb V /\ nvb V <= iwidth V.
  Proof.
    pose proof sf_nums as (H1 & H2 & H3 & H4).
    destruct (unpacked_type_ok (sf_W f) bpw) as [A1 A2]; [apply (so_W _ _ Hf)|lia|].
    split; [exact A1|]. split; [apply unpacked_width; apply (so_W _ _ Hf)|]. split; [exact A2|apply nvb_width].
  Qed.

  Lemma sf_T_ok : ity_ok T /\ 1 <= n <= iwidth T /\ B <= n.
  Proof.
    pose proof (so_n _ _ Hf) as H. unfold s_transf_width, transf_bits in H. unfold s_transf_type.
    destruct (so_T8 _ _ Hf) as [A1 A2]. destruct (so_T16 _ _ Hf) as [B1 B2].
    destruct (Z.leb_spec B 8).
    - assert (n = 8) by congruence. split; [assumption|lia].
    - destruct (Z.leb_spec B 16); [|discriminate].
      assert (n = 16) by congruence. split; [assumption|lia].
  Qed.

  Lemma total_repeat (b : Z) k : total (repeat (BitField b 0) k) = Z.of_nat k * b.
  Proof using. clear. induction k as [|k IH]; cbn [repeat total fwidth fgap]; lia. Qed.

  Lemma sf_fields : Forall field_ok fs /\ Z.of_nat (length fs) = C /\ total fs = C * B.
  Proof.
    pose proof sf_nums as (H1 & _). pose proof (so_C _ _ Hf). unfold s_fields. split; [|split].
    - apply Forall_forall. intros g Hg. apply repeat_spec in Hg. subst g. split; cbn; lia.
    - rewrite repeat_length. lia.
    - rewrite total_repeat. lia.
  Qed.

  Lemma skipn_repeat {A} (x : A) k m : skipn k (repeat x m) = repeat x (m - k).
  Proof using. clear. revert m. induction k as [|k IH]; intros [|m]; cbn [skipn repeat Nat.sub]; try reflexivity. apply IH. Qed.

  Lemma sf_field j : 0 <= j < C -> nth_error fs (Z.to_nat j) = Some (BitField B 0) /\ shift_at fs (Z.to_nat j) = (C - 1 - j) * B.
  Proof.
    intros Hj. assert (E : nth_error fs (Z.to_nat j) = Some (BitField B 0)).
    { unfold s_fields. apply nth_error_repeat. lia. }
    split; [exact E|]. unfold shift_at. rewrite E. unfold s_fields. rewrite skipn_repeat, total_repeat. cbn [fgap].
    replace (Z.of_nat (Z.to_nat C - S (Z.to_nat j))) with (C - 1 - j) by lia. lia.
  Qed.

  Lemma map_channel_pos_ok i : 0 <= i < C -> map_channel_pos f i = Some (C - 1 - fidx C al rv i).
  Proof using.
    intros Hi. unfold map_channel_pos. replace ((0 <=? i) && (i <? C)) with true by lia. unfold fidx.
    destruct al, rv; cbn [negb]; f_equal; lia.
  Qed.

  Lemma s_read_comp_ok i q : 0 <= i < C -> 0 <= q < 2 ^ (C * B) ->
    s_read_comp f q i = nth_error (s_tray_pixel f n (s_channels f n q)) (Z.to_nat i).
  Proof.
    intros Hi Hq. pose proof sf_nums as (H1 & H2 & H3 & H4). pose proof sf_V as (V1 & V2 & V3 & V4).
    pose proof sf_T_ok as (T1 & T2 & T3). pose proof sf_fields as (F1 & F2 & F3).
    pose proof (fidx_range C al rv i Hi) as Hr. unfold s_read_comp. rewrite map_channel_pos_ok by assumption. cbn [obind].
    set (j := fidx C al rv i) in *. destruct (sf_field j Hr) as [E1 E2].
    assert (2 ^ (C * B) <= 2 ^ nvb V) by (apply Z.pow_le_mono_r; nia).
    rewrite take_bits_ok by (try assumption; nia). cbn [obind]. rewrite (so_n _ _ Hf). cbn [obind].
    pose proof (digit_range B (C - 1 - j) q ltac:(lia)) as Hd.
    rewrite <- (packed_small V B (digit B (C - 1 - j) q)) at 1 by (try assumption; nia).
    rewrite int_to_int_spec by (try assumption; nia).
    unfold s_tray_pixel. rewrite nth_error_map. unfold s_channels.
    rewrite nth_canonical by (rewrite map_length, field_values_length; lia).
    rewrite map_length, field_values_length, F2. fold j. rewrite nth_error_map.
    rewrite (nth_field_values fs q _ _ E1), E2. cbn [option_map fwidth]. unfold digit.
    now rewrite (Z.mul_comm B (C - 1 - j)).
  Qed.

  Lemma s_channels_length q : length (s_channels f n q) = Z.to_nat C.
  Proof.
    unfold s_channels. rewrite to_canonical_length, map_length, field_values_length. unfold s_fields. apply repeat_length.
  Qed.

  Lemma s_read_comps_ok q : 0 <= q < 2 ^ (C * B) -> forall k i, Z.of_nat k = C - i -> 0 <= i ->
    s_read_comps f k i q = Some (skipn (Z.to_nat i) (s_tray_pixel f n (s_channels f n q))).
  Proof.
    intros Hp. pose proof (so_C _ _ Hf). assert (L : Z.of_nat (length (s_tray_pixel f n (s_channels f n q))) = C)
      by (unfold s_tray_pixel; rewrite map_length, s_channels_length; lia).
    induction k as [|k IH]; intros i Hk Hi; cbn [s_read_comps].
    - rewrite skipn_all2 by lia. reflexivity.
    - rewrite s_read_comp_ok by (try assumption; lia).
      destruct (nth_error (s_tray_pixel f n (s_channels f n q)) (Z.to_nat i)) as [c|] eqn:E;
        [|apply nth_error_None in E; lia].
      cbn [obind]. rewrite IH by lia. cbn [obind]. f_equal.
      destruct (nth_error_split _ _ E) as (l1 & l2 & -> & L1). rewrite <- L1.
      replace (Z.to_nat (i + 1)) with (length l1 + 1)%nat by lia.
      rewrite !skipn_app, skipn_all, Nat.sub_diag. rewrite skipn_all2 by lia.
      replace (length l1 + 1 - length l1)%nat with 1%nat by lia. reflexivity.
  Qed.

  Lemma pos_range (p : Z) (l : bool) : 0 <= p < N -> 0 <= (if l then p else N - 1 - p) < N.
  Proof using. clear. destruct l; lia. Qed.

  Lemma s_get_pixel_ok c p : 0 <= c < 2 ^ bpw -> 0 <= p < N ->
    s_get_pixel f c p = Some (s_tray_pixel f n (s_channels f n (s_pixel_in f c p))).
  Proof.
    intros Hc Hp. pose proof sf_nums as (H1 & H2 & H3 & H4). pose proof sf_V as (V1 & V2 & V3 & V4). pose proof (so_C _ _ Hf).
    unfold s_get_pixel. rewrite map_pixel_pos_ok by assumption. cbn [obind].
    pose proof (pos_range p (sf_little f) Hp) as Hk. unfold s_pixel_in, pixel_in.
    set (k := if sf_little f then p else N - 1 - p) in *. unfold s_bits_per_pixel.
    assert (2 ^ bpw <= 2 ^ nvb V) by (apply Z.pow_le_mono_r; lia).
    rewrite take_bits_ok by (try assumption; nia). cbn [obind].
    pose proof (digit_range (C * B) k c ltac:(lia)).
    rewrite s_read_comps_ok by (try assumption; lia). reflexivity.
  Qed.

  Lemma s_read_word_ok buf off c : 0 <= c < 2 ^ bpw -> word buf off = Some (packed_form (sf_W f) bpw c) ->
    read_word f buf off = Some c.
  Proof.
    intros Hc Hw. pose proof sf_nums as (H1 & H2 & H3 & H4). unfold read_word. rewrite rd_word, Hw. cbn [obind].
    apply unpack_int_spec; [apply (so_W _ _ Hf)|unfold s_bits_per_word, s_bits_per_pixel; lia|assumption].
  Qed.

  Lemma s_write_word_ok c buf off : 0 <= c < 2 ^ bpw -> 0 <= off -> off + 1 <= Z.of_nat (length buf) ->
    exists buf', write_word f c buf off = Some buf' /\ length buf' = length buf /\
      word buf' off = Some (packed_form (sf_W f) bpw c) /\ forall k, ~ (off <= k < off + 1) -> word buf' k = word buf k.
  Proof.
    intros Hc Ho Hl. pose proof sf_nums as (H1 & H2 & H3 & H4). pose proof sf_V as (V1 & V2 & V3 & V4). unfold write_word.
    assert (2 ^ bpw <= 2 ^ nvb V) by (apply Z.pow_le_mono_r; lia).
    change (s_bits_per_word f) with bpw. rewrite pack_int_spec; try assumption; try lia;
      [|apply (so_W _ _ Hf)|apply small_range; [assumption|lia]].
    cbn [obind]. destruct (wr_ok buf off (packed_form (sf_W f) bpw c)) as (b & E & L & F); [lia|].
    exists b. split; [exact E|]. split; [exact L|]. split; [rewrite F, Z.eqb_refl; reflexivity|].
    intros k Hk. rewrite F. replace (k =? off) with false by lia. reflexivity.
  Qed.

  (* what is set *)

  Lemma s_vals_ok cs : s_channels_ok f n cs -> vals_ok fs (map (unit_scale n B) (to_field_order al rv cs)).
  Proof.
    intros [L Hc]. pose proof sf_nums as (H1 & _). pose proof sf_T_ok as (_ & T2 & _).
    assert (L' : length (to_field_order al rv cs) = Z.to_nat C) by (rewrite to_field_length; exact L).
    assert (C' : Forall (fun c => 0 <= c < 2 ^ n) (to_field_order al rv cs)).
    { apply Forall_forall. intros c Hi. rewrite Forall_forall in Hc. apply Hc.
      unfold to_field_order in Hi. destruct rv; [apply in_rev in Hi|]; destruct al; try assumption;
      apply in_app_iff in Hi; (rewrite <- (firstn_skipn (length cs - 1) cs); apply in_app_iff; tauto). }
    unfold s_fields, vals_ok. rewrite <- L'. revert C'. generalize (to_field_order al rv cs). clear - H1 T2.
    induction l as [|c l IH]; intros C'; cbn [map length repeat]; constructor.
    - apply Forall_cons_iff in C' as [Hc _]. cbn [fwidth]. apply unit_scale_range; lia.
    - apply IH. now apply Forall_cons_iff in C'.
  Qed.

  Lemma s_write_comps_ok cs : s_channels_ok f n cs ->
    forall k i vs, Z.of_nat k = C - i -> 0 <= i -> vals_ok fs vs ->
    (forall i', 0 <= i' < C ->
       nth_error vs (Z.to_nat (fidx C al rv i')) =
       if i' <? i then nth_error (map (unit_scale n B) (to_field_order al rv cs)) (Z.to_nat (fidx C al rv i'))
       else Some 0) ->
    s_write_comps f k i (s_tray_pixel f n cs) (compound fs vs) = Some (s_represent f n cs).
  Proof.
    intros Hcs. pose proof (s_vals_ok cs Hcs) as Hw. destruct Hcs as [L Hc0].
    pose proof sf_nums as (H1 & H2 & H3 & H4). pose proof sf_V as (V1 & V2 & V3 & V4). pose proof (so_C _ _ Hf) as HC.
    pose proof sf_T_ok as (T1 & T2 & T3). pose proof sf_fields as (F1 & F2 & F3).
    assert (LW : forall vs, vals_ok fs vs -> length vs = length fs) by (intros ?; apply vals_ok_length).
    assert (HT : C * B <= nvb V) by nia.
    assert (Hpow : 2 ^ (C * B) <= 2 ^ nvb V) by (apply Z.pow_le_mono_r; lia).
    induction k as [|k IH]; intros i vs Hk Hi Hvs Hinv; cbn [s_write_comps].
    - f_equal. unfold s_represent. f_equal. apply nth_error_ext; [rewrite !LW by assumption; reflexivity|].
      intros j Hj. rewrite LW in Hj by assumption.
      destruct (fidx_sur C al rv (Z.of_nat j)) as (i' & Hi' & E); [lia|].
      specialize (Hinv i' Hi'). rewrite E, Nat2Z.id in Hinv. rewrite Hinv.
      replace (i' <? i) with true by lia. reflexivity.
    - assert (Hin : 0 <= i < C) by lia.
      pose proof (fidx_range C al rv i Hin) as Hr. destruct (sf_field _ Hr) as [E1 E2].
      destruct (nth_error cs (Z.to_nat i)) as [c|] eqn:Ec; [|apply nth_error_None in Ec; lia].
      assert (Hc : 0 <= c < 2 ^ n) by (rewrite Forall_forall in Hc0; apply Hc0; eapply nth_error_In; eassumption).
      unfold rd. replace (0 <=? i) with true by lia. unfold s_tray_pixel at 1. rewrite nth_error_map, Ec. cbn [option_map obind].
      unfold s_write_comp. rewrite (so_n _ _ Hf). cbn [obind].
      rewrite int_to_int_spec by (try assumption; nia). cbn [obind].
      rewrite packed_small by (assumption || nia). rewrite map_channel_pos_ok by assumption. cbn [obind].
      pose proof (unit_scale_range n B c ltac:(lia) ltac:(lia) Hc) as Hu.
      set (u := unit_scale n B c) in *. set (j := fidx C al rv i) in *. rewrite <- E2.
      assert (Hsh : 0 <= shift_at fs (Z.to_nat j) /\ shift_at fs (Z.to_nat j) + B <= C * B) by (rewrite E2; nia).
      assert (0 < 2 ^ shift_at fs (Z.to_nat j)) by (apply Z.pow_pos_nonneg; lia).
      assert (Hs : 0 <= u * 2 ^ shift_at fs (Z.to_nat j) < 2 ^ nvb V).
      { split; [nia|]. apply Z.lt_le_trans with (2 ^ B * 2 ^ shift_at fs (Z.to_nat j)); [nia|].
        rewrite <- Z.pow_add_r by lia. apply Z.pow_le_mono_r; lia. }
      rewrite cshl_small by (try assumption; lia). cbn [obind].
      pose proof (compound_range fs vs F1 Hvs) as Hcr. rewrite F3 in Hcr.
      rewrite cor_small by (try assumption; lia). cbn [snd].
      rewrite wrap_small; [|assumption|apply lor_lt; lia].
      pose proof (Hinv i Hin) as H0. rewrite Z.ltb_irrefl in H0. fold j in H0.
      assert (Es : exists vs', set_nth vs (Z.to_nat j) u = Some vs').
      { rewrite set_nth_some by (apply nth_error_Some; congruence). eauto. }
      destruct Es as [vs' Es].
      destruct (compound_set fs vs vs' (Z.to_nat j) _ u F1 Hvs E1 Hu H0 Es) as [Hvs' El]. rewrite El.
      apply IH; try lia; try assumption. intros i' Hi'.
      rewrite (nth_error_set_nth _ _ _ _ _ Es). pose proof (fidx_range C al rv i' Hi') as Hr'.
      destruct (Nat.eqb_spec (Z.to_nat (fidx C al rv i')) (Z.to_nat j)) as [E|E].
      + assert (i' = i) by (apply (fidx_inj C al rv); try assumption; fold j; lia).
        subst i'. replace (i <? i + 1) with true by lia. symmetry. rewrite nth_error_map.
        replace C with (Z.of_nat (length cs)) by lia. rewrite nth_field by lia. rewrite Ec. reflexivity.
      + rewrite (Hinv i' Hi').
        assert (i' <> i) by (intros ->; apply E; reflexivity).
        replace (i' <? i + 1) with (i' <? i) by lia. reflexivity.
  Qed.

  Lemma encode_pixel_ok cs : s_channels_ok f n cs -> encode_pixel f (s_tray_pixel f n cs) = Some (s_represent f n cs).
  Proof.
    intros Hcs. pose proof (so_C _ _ Hf) as HC. pose proof sf_fields as (F1 & F2 & _).
    unfold encode_pixel. rewrite <- (compound_zeros fs) at 2. apply s_write_comps_ok; try assumption; try lia.
    - clear - F1. induction F1 as [|g gs [G1 G2] _ IH]; cbn [map]; constructor.
      + split; [lia|]. apply Z.pow_pos_nonneg; lia.
      + exact IH.
    - intros i' Hi'. pose proof (fidx_range C al rv i' Hi'). replace (i' <? 0) with false by lia.
      rewrite nth_error_map. destruct (nth_error fs _) eqn:E; [reflexivity|].
      apply nth_error_None in E. lia.
  Qed.

  Lemma s_represent_range cs : s_channels_ok f n cs -> 0 <= s_represent f n cs < 2 ^ (C * B).
  Proof.
    intros Hcs. pose proof sf_fields as (F1 & F2 & F3). rewrite <- F3. unfold s_represent.
    apply compound_range; [assumption|]. now apply s_vals_ok.
  Qed.

  Lemma do_set_pixel_ok v c p : 0 <= v < 2 ^ (C * B) -> 0 <= c < 2 ^ bpw -> 0 <= p < N ->
    exists c', do_set_pixel f v c p = Some c' /\ 0 <= c' < 2 ^ bpw /\ s_pixel_in f c' p = v /\
      forall q, 0 <= q < N -> q <> p -> s_pixel_in f c' q = s_pixel_in f c q.
  Proof.
    intros Hv Hc Hp. pose proof sf_nums as (H1 & H2 & H3 & H4). pose proof sf_V as (V1 & V2 & V3 & V4). pose proof (so_C _ _ Hf).
    unfold do_set_pixel. rewrite map_pixel_pos_ok by assumption. cbn [obind]. unfold s_pixel_in, pixel_in.
    pose proof (pos_range p (sf_little f) Hp) as Hk.
    remember (if sf_little f then p else N - 1 - p) as k eqn:Ek.
    change (s_bits_per_pixel f) with (C * B). change (s_bits_per_word f) with bpw.
    assert ((k + 1) * (C * B) <= bpw) by nia.
    rewrite put_bits_ok by (try assumption; lia). eexists. split; [reflexivity|].
    destruct (replace_digit_spec bpw (C * B) k v c) as (R1 & R2 & R3); try assumption; try lia.
    split; [exact R1|]. split; [exact R2|]. intros q Hq Hne. apply R3; [|destruct (sf_little f); lia].
    pose proof (pos_range q (sf_little f) Hq). lia.
  Qed.

  Definition s_enc (p : list Z) : Z := s_represent f n (map (fun v => v mod 2 ^ n) p).
  Definition s_okp (p : list Z) : Prop := exists cs, s_channels_ok f n cs /\ p = s_tray_pixel f n cs.

  Lemma s_enc_tray cs : s_channels_ok f n cs -> s_enc (s_tray_pixel f n cs) = s_represent f n cs.
  Proof.
    intros [_ Hc]. unfold s_enc, s_tray_pixel. rewrite map_map. f_equal. rewrite <- (map_id cs) at 2.
    apply map_ext_in. intros c Hi. rewrite Forall_forall in Hc. pose proof sf_T_ok. apply packed_mod; [lia|now apply Hc].
  Qed.

  Lemma s_set_pixel_ok v c p : s_okp v -> 0 <= c < 2 ^ bpw -> 0 <= p < N ->
    exists c', s_set_pixel f v c p = Some c' /\ 0 <= c' < 2 ^ bpw /\ s_pixel_in f c' p = s_enc v /\
      forall q, 0 <= q < N -> q <> p -> s_pixel_in f c' q = s_pixel_in f c q.
  Proof.
    intros (cs & Hcs & ->) Hc Hp. unfold s_set_pixel. rewrite encode_pixel_ok by assumption. cbn [obind].
    rewrite s_enc_tray by assumption. apply do_set_pixel_ok; try assumption. now apply s_represent_range.
  Qed.
End Subword.

(* ---- indexed formats ---- *)

Section Indexed.
  Variable f : indexed_format.
  Hypothesis Hf : x_format_ok f.

  Notation V := (x_value_type f).
  Notation M := (xf_M f).
  Notation N := (xf_N f).
  Notation B := (xf_B f).
  Notation D := (xf_D f).

  Lemma xf_nums : 1 <= M /\ 1 <= N < 2 ^ 31 /\ N * M <= B * D /\ 1 <= B <= iwidth (xf_W f) /\ 1 <= D /\
    B * D <= iwidth (xf_S f) < 2 ^ 31.
  Proof.
    pose proof (xo_static _ Hf) as H. pose proof (xo_S _ Hf) as [HS1 HS2]. unfold x_static_ok in H. rewrite !andb_true_iff in H.
    destruct H as ((((((H1 & H2) & H3) & H4) & H5) & H6) & H7). unfold x_bits_per_compound in *.
    assert (1 <= M) by lia. assert (1 <= N) by lia. assert (1 <= B) by lia. assert (1 <= D) by lia.
    pose proof (ity_ok_width _ HS1). assert (0 <= D * B) by nia.
    rewrite Z.quot_div_nonneg in H3, H7 by lia. apply Z.leb_le in H3, H7.
    assert (M * (D * B / M) <= D * B) by (apply Z.mul_div_le; lia).
    assert (B * (iwidth (xf_S f) / B) <= iwidth (xf_S f)) by (apply Z.mul_div_le; lia).
    assert (B * D <= iwidth (xf_S f)) by nia. assert (N * M <= B * D) by nia. assert (N <= B * D) by nia. lia.
  Qed.

  Lemma xf_V : ity_ok V /\ 32 <= iwidth V /\ B * D <= nvb V /\ nvb V <= iwidth V.
  Proof.
    pose proof xf_nums as (H1 & H2 & H3 & H4 & H5 & H6). pose proof (xo_S _ Hf) as [HS1 HS2].
    destruct (unpacked_type_ok (xf_S f) (D * B)) as [A1 A2]; [assumption|nia|].
    split; [exact A1|]. split; [now apply unpacked_width|]. split; [unfold x_value_type, x_bits_per_compound; lia|apply nvb_width].
  Qed.

  Lemma x_get_pixel_ok c p : 0 <= c < 2 ^ (B * D) -> 0 <= p < N -> M <= 8 ->
    x_get_pixel f c p = Some (packed_form (xf_T8 f) 8 (x_pixel_in f c p)).
  Proof.
    intros Hc Hp HM. pose proof xf_nums as (H1 & H2 & H3 & H4 & H5 & H6). pose proof xf_V as (V1 & V2 & V3 & V4).
    unfold x_get_pixel. rewrite map_pixel_pos_ok by assumption. cbn [obind]. unfold x_pixel_in, pixel_in.
    assert (Hk : 0 <= (if xf_bit_little f then p else N - 1 - p) < N) by (destruct (xf_bit_little f); lia).
    remember (if xf_bit_little f then p else N - 1 - p) as k eqn:Ek.
    assert (2 ^ (B * D) <= 2 ^ nvb V) by (apply Z.pow_le_mono_r; lia).
    rewrite take_bits_ok by (try assumption; nia). cbn [obind].
    pose proof (digit_range M k c ltac:(lia)) as Hd. assert (2 ^ M <= 2 ^ 8) by (apply Z.pow_le_mono_r; lia).
    assert (2 ^ M <= 2 ^ nvb V) by (apply Z.pow_le_mono_r; nia).
    pose proof (xo_T8 _ Hf) as [T1 T2]. apply pack_int_spec; try assumption; try lia. apply small_range; [assumption|lia].
  Qed.

  Lemma x_set_pixel_ok v c p : 0 <= v < 2 ^ M -> v < 2 ^ 8 -> 0 <= c < 2 ^ (B * D) -> 0 <= p < N ->
    exists c', x_set_pixel f (packed_form (xf_T8 f) 8 v) c p = Some c' /\ 0 <= c' < 2 ^ (B * D) /\ x_pixel_in f c' p = v /\
      forall q, 0 <= q < N -> q <> p -> x_pixel_in f c' q = x_pixel_in f c q.
  Proof.
    intros Hv Hv8 Hc Hp. pose proof xf_nums as (H1 & H2 & H3 & H4 & H5 & H6). pose proof xf_V as (V1 & V2 & V3 & V4).
    pose proof (xo_T8 _ Hf) as [T1 T2]. unfold x_set_pixel. rewrite unpack_int_spec by (try assumption; lia). cbn [obind].
    assert (2 ^ M <= 2 ^ nvb V) by (apply Z.pow_le_mono_r; nia). rewrite wrap_small by (assumption || lia).
    rewrite map_pixel_pos_ok by assumption. cbn [obind]. unfold x_pixel_in, pixel_in.
    assert (Hk : 0 <= (if xf_bit_little f then p else N - 1 - p) < N) by (destruct (xf_bit_little f); lia).
    remember (if xf_bit_little f then p else N - 1 - p) as k eqn:Ek.
    replace (x_bits_per_compound f) with (B * D) by (unfold x_bits_per_compound; lia).
    assert ((k + 1) * M <= B * D) by nia.
    rewrite put_bits_ok by (try assumption; lia). eexists. split; [reflexivity|].
    destruct (replace_digit_spec (B * D) M k v c) as (R1 & R2 & R3); try assumption; try lia.
    split; [exact R1|]. split; [exact R2|]. intros q Hq Hne. apply R3; destruct (xf_bit_little f); lia.
  Qed.
End Indexed.
