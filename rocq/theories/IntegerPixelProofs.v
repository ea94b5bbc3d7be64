From Coq Require Import ZArith Lia Bool List ZifyBool.
From Verif Require Import CInt IntModel IntSpec IntProofs IntProofs3.
From Verif Require Import PixelBoxModel PixelBoxSpec BitMediumModel BitMediumSpec BitMediumProofs BitMediumProofs2.
From Verif Require Import IntBitCopyProofs IntBitCopyProofs2.
From Verif Require Import ArrLib PixelBufModel PixelBufSpec PixelBufProofs PixelBufProofs2.
From Verif Require Import PackedPixelModel PackedPixelSpec PackedPixelProofs PackedPixelProofs2.
From Verif Require Import IntegerPixelModel IntegerPixelSpec.
Import ListNotations.
Open Scope Z_scope.

Lemma uac_nvb P Q : 32 <= iwidth P -> 32 <= iwidth Q -> nvb P <= nvb (uac P Q) /\ nvb Q <= nvb (uac P Q).
Proof.
  intros HP HQ. unfold uac. rewrite !promo_id by assumption. unfold nvb.
  destruct (isigned P) eqn:EP, (isigned Q) eqn:EQ; cbn [Bool.eqb].
  - destruct (Z.leb_spec (iwidth Q) (iwidth P)); rewrite ?EP, ?EQ; lia.
  - destruct (Z.ltb_spec (iwidth Q) (iwidth P)); rewrite ?EP, ?EQ; lia.
  - destruct (Z.ltb_spec (iwidth P) (iwidth Q)); rewrite ?EP, ?EQ; lia.
  - destruct (Z.leb_spec (iwidth Q) (iwidth P)); rewrite ?EP, ?EQ; lia.
Qed.

Lemma cor_mixed P Q a b : ity_ok P -> ity_ok Q -> 32 <= iwidth P -> 32 <= iwidth Q ->
  0 <= a < 2 ^ nvb P -> 0 <= b < 2 ^ nvb Q -> snd (cor (P, a) (Q, b)) = Z.lor a b.
Proof.
  intros HP HQ WP WQ Ha Hb. destruct (uac_nvb P Q WP WQ) as [N1 N2].
  pose proof (uac_ok P Q HP HQ) as HU.
  assert (0 <= nvb P) by (unfold nvb; destruct (isigned P); lia).
  assert (0 <= nvb Q) by (unfold nvb; destruct (isigned Q); lia).
  assert (2 ^ nvb P <= 2 ^ nvb (uac P Q)) by (apply Z.pow_le_mono_r; lia).
  assert (2 ^ nvb Q <= 2 ^ nvb (uac P Q)) by (apply Z.pow_le_mono_r; lia).
  unfold cor. cbn [fst snd]. rewrite (wrap_small (uac P Q) a), (wrap_small (uac P Q) b) by (assumption || lia).
  apply wrap_small; [assumption|]. apply lor_lt; lia.
Qed.

(* the remaining digits *)
Lemma digit_next b i p : 0 <= b -> 0 <= i -> 0 <= p ->
  p / 2 ^ (b * i) = p / 2 ^ (b * (i + 1)) * 2 ^ b + digit b i p.
Proof.
  intros Hb Hi Hp. unfold digit. replace (b * (i + 1)) with (b * i + b) by lia.
  rewrite Z.pow_add_r by nia. rewrite <- Z.div_div; [|apply Z.pow_nonzero; nia|apply Z.pow_pos_nonneg; lia].
  pose proof (Z.div_mod (p / 2 ^ (b * i)) (2 ^ b) ltac:(apply Z.pow_nonzero; lia)). lia.
Qed.

Section Any.
  Variable f : integer_format.
  Hypothesis Ha : i_format_any f.
  Notation U := (i_comp_type f).

  Lemma i_BD : 1 <= if_B f <= iwidth (if_W f) /\ 1 <= if_D f /\ if_B f * if_D f < 2 ^ 31 /\
    if_N f * if_D f < 2 ^ 31 /\ if_B f * if_D f <= iwidth (if_S f).
  Proof.
    pose proof (ia_static _ Ha) as H. pose proof (ia_N _ Ha) as HN. unfold i_static_ok, i_bit_depth in H. rewrite !andb_true_iff in H.
    destruct H as (((((H1 & H2) & H3) & H4) & H5) & H6).
    assert (if_B f > 0) by lia. assert (if_D f > 0) by lia.
    rewrite Z.quot_div_nonneg in H4 by (cbn; lia). rewrite Z.quot_div_nonneg in H6 by (cbn; lia).
    apply Z.leb_le in H4, H6.
    assert (if_B f * (imax t_int / if_B f) <= imax t_int) by (apply Z.mul_div_le; lia).
    assert (if_N f * (imax t_int / if_N f) <= imax t_int) by (apply Z.mul_div_le; lia).
    change (imax t_int) with (2 ^ 31 - 1) in *. split; [lia|]. split; [lia|]. split; [nia|]. split; [nia|]. lia.
  Qed.

  Lemma i_U : ity_ok U /\ 32 <= iwidth U /\ if_B f * if_D f <= nvb U /\ nvb U <= iwidth U.
  Proof.
    pose proof i_BD as (B1 & D1 & _ & _ & BS). unfold i_comp_type, i_bit_depth. rewrite (Z.mul_comm (if_D f)).
    destruct (unpacked_type_ok (if_S f) (if_B f * if_D f) (ia_S _ Ha)) as [A1 A2]; [nia|].
    split; [exact A1|]. split; [apply unpacked_width; apply (ia_S _ Ha)|]. split; [exact A2|]. apply nvb_width.
  Qed.

  Lemma i_Wu : ity_ok (unpacked_type (if_W f) (if_B f)) /\ 32 <= iwidth (unpacked_type (if_W f) (if_B f)) /\
    if_B f <= nvb (unpacked_type (if_W f) (if_B f)).
  Proof.
    pose proof i_BD as (B1 & _). destruct (unpacked_type_ok (if_W f) (if_B f) (ia_W _ Ha)) as [A1 A2]; [lia|].
    split; [exact A1|]. split; [apply unpacked_width; apply (ia_W _ Ha)|exact A2].
  Qed.

  Lemma assemble_ok buf ptr p : 0 <= p < 2 ^ (if_B f * if_D f) -> if_B f < iwidth U ->
    stored (if_W f) (if_B f) (if_D f) (if_little f) buf ptr p ->
    forall n i, Z.of_nat n = if_D f - i -> 0 <= i ->
    assemble f n i buf ptr (p / 2 ^ (if_B f * (if_D f - i))) = Some p.
  Proof.
    intros Hp HB Hs. pose proof i_BD as (B1 & D1 & _ & _ & BS). pose proof i_U as (U1 & U2 & U3 & U4).
    pose proof i_Wu as (W1 & W2 & W3). pose proof (ia_W _ Ha) as HW.
    set (B := if_B f) in *. set (D := if_D f) in *.
    assert (HBU : 2 ^ (B * D) <= 2 ^ nvb U) by (apply Z.pow_le_mono_r; nia).
    induction n as [|n IH]; intros i Hn Hi; cbn [assemble].
    - replace (D - i) with 0 by lia. rewrite Z.mul_0_r, Z.div_1_r. reflexivity.
    - unfold i_map_word_index. fold D. replace ((0 <=? i) && (i <? D)) with true by lia. cbn [obind]. fold B.
      set (q := p / 2 ^ (B * (D - i))).
      assert (E : p / 2 ^ (B * (D - (i + 1))) = q * 2 ^ B + digit B (D - (i + 1)) p).
      { unfold q. replace (D - i) with (D - (i + 1) + 1) by lia. apply digit_next; lia. }
      pose proof (digit_range B (D - (i + 1)) p ltac:(lia)) as Hd.
      assert (0 < 2 ^ (B * (D - i))) by (apply Z.pow_pos_nonneg; nia).
      assert (Hq : 0 <= q) by (apply Z.div_pos; lia).
      assert (Hn2 : p / 2 ^ (B * (D - (i + 1))) < 2 ^ (B * D)).
      { apply Z.le_lt_trans with p; [|lia]. assert (0 < 2 ^ (B * (D - (i + 1)))) by (apply Z.pow_pos_nonneg; nia).
        apply Z.div_le_upper_bound; nia. }
      assert (0 < 2 ^ B) by (apply Z.pow_pos_nonneg; lia).
      rewrite cshl_small by (try assumption; nia). cbn [obind snd].
      rewrite wrap_small by (assumption || nia). rewrite rd_word.
      assert (Ej : word buf (ptr + (if if_little f then D - 1 - i else i)) = Some (packed_form (if_W f) B (digit B (D - (i + 1)) p))).
      { rewrite Hs by (destruct (if_little f); lia). do 3 f_equal. destruct (if_little f); lia. }
      rewrite Ej. cbn [obind]. rewrite unpack_int_spec by (assumption || lia). cbn [obind].
      assert (2 ^ B <= 2 ^ nvb (unpacked_type (if_W f) B)) by (apply Z.pow_le_mono_r; lia).
      rewrite cor_mixed by (try assumption; nia).
      rewrite lor_shift_add by lia. rewrite wrap_small by (assumption || nia).
      rewrite <- E. apply IH; lia.
  Qed.

  Lemma assemble_comp_ok buf ptr p : 0 <= p < 2 ^ (if_B f * if_D f) -> if_B f < iwidth U ->
    stored (if_W f) (if_B f) (if_D f) (if_little f) buf ptr p -> assemble_comp f buf ptr = Some p.
  Proof.
    intros Hp HB Hs. unfold assemble_comp. pose proof i_BD as (B1 & D1 & _).
    rewrite <- (assemble_ok buf ptr p Hp HB Hs (Z.to_nat (if_D f)) 0) by lia.
    rewrite Z.sub_0_r, Z.div_small by lia. reflexivity.
  Qed.

  Lemma split_ok p ptr : 0 <= p < 2 ^ (if_B f * if_D f) -> 0 <= ptr ->
    forall n i buf, Z.of_nat n = if_D f - i -> 0 <= i -> ptr + if_D f <= Z.of_nat (length buf) ->
    exists buf', split f n i p buf ptr = Some buf' /\ length buf' = length buf /\
      (forall j, i <= j < if_D f -> word buf' (ptr + (if if_little f then if_D f - 1 - j else j)) =
         Some (packed_form (if_W f) (if_B f) (digit (if_B f) (if_D f - 1 - j) p))) /\
      (forall k, (forall j, i <= j < if_D f -> k <> ptr + (if if_little f then if_D f - 1 - j else j)) ->
         word buf' k = word buf k).
  Proof.
    intros Hp Hptr. pose proof i_BD as (B1 & D1 & _ & _ & BS). pose proof i_U as (U1 & U2 & U3 & U4).
    pose proof (ia_W _ Ha) as HW.
    set (B := if_B f) in *. set (D := if_D f) in *.
    assert (HBU : 2 ^ (B * D) <= 2 ^ nvb U) by (apply Z.pow_le_mono_r; nia).
    assert (HBU2 : 2 ^ B <= 2 ^ nvb U) by (apply Z.pow_le_mono_r; nia).
    induction n as [|n IH]; intros i buf Hn Hi Hl; cbn [split].
    - exists buf. split; [reflexivity|]. split; [reflexivity|]. split; [lia|]. intros; reflexivity.
    - fold B D. assert (Hsh : 0 <= (D - 1 - i) * B < iwidth U) by nia.
      rewrite cshr_small by (try assumption; lia). cbn [obind].
      rewrite int_mask_spec by (try assumption; nia). cbn [obind].
      assert (0 < 2 ^ ((D - 1 - i) * B)) by (apply Z.pow_pos_nonneg; lia).
      assert (Hq : 0 <= p / 2 ^ ((D - 1 - i) * B) < 2 ^ nvb U).
      { split; [apply Z.div_pos; lia|]. apply Z.le_lt_trans with p; [|lia]. apply Z.div_le_upper_bound; nia. }
      rewrite cand_mask by (try assumption; nia). cbn [snd].
      replace ((D - 1 - i) * B) with (B * (D - 1 - i)) by lia. fold (digit B (D - 1 - i) p).
      pose proof (digit_range B (D - 1 - i) p ltac:(lia)) as Hd.
      rewrite wrap_small by (assumption || lia).
      unfold i_map_word_index. fold D. replace ((0 <=? i) && (i <? D)) with true by lia. cbn [obind].
      rewrite pack_int_spec; [|assumption|assumption|lia|apply small_range; [assumption|lia]|lia]. cbn [obind].
      set (a := fun j => ptr + (if if_little f then D - 1 - j else j)).
      assert (Har : forall j, 0 <= j < D -> ptr <= a j < ptr + D) by (intros; unfold a; destruct (if_little f); lia).
      assert (Hai : forall j j', a j = a j' -> j = j') by (intros j j'; unfold a; destruct (if_little f); lia).
      fold (a i).
      destruct (wr_ok buf (a i) (packed_form (if_W f) B (digit B (D - 1 - i) p))) as (b1 & E1 & L1 & N1);
        [specialize (Har i ltac:(lia)); lia|].
      rewrite E1. cbn [obind]. destruct (IH (i + 1) b1) as (b2 & E2 & L2 & S2 & F2); try lia.
      exists b2. split; [exact E2|]. split; [lia|]. split.
      + intros j Hj. fold (a j). destruct (Z.eq_dec j i) as [->|]; [|apply S2; lia].
        rewrite F2; [rewrite N1, Z.eqb_refl; reflexivity|]. intros j' Hj' E. apply Hai in E. lia.
      + intros k Hk. rewrite F2 by (intros; apply Hk; lia). rewrite N1.
        replace (k =? a i) with false; [reflexivity|]. symmetry. apply Z.eqb_neq. apply Hk. lia.
  Qed.

  Lemma split_comp_ok p buf ptr : 0 <= p < 2 ^ (if_B f * if_D f) -> 0 <= ptr -> ptr + if_D f <= Z.of_nat (length buf) ->
    exists buf', split_comp f p buf ptr = Some buf' /\ length buf' = length buf /\
      stored (if_W f) (if_B f) (if_D f) (if_little f) buf' ptr p /\
      forall k, ~ (ptr <= k < ptr + if_D f) -> word buf' k = word buf k.
  Proof.
    intros Hp Hptr Hl. pose proof i_BD as (B1 & D1 & _).
    destruct (split_ok p ptr Hp Hptr (Z.to_nat (if_D f)) 0 buf) as (b & E & L & S & F); try lia.
    exists b. split; [exact E|]. split; [exact L|]. split.
    - intros i Hi. specialize (S (if if_little f then if_D f - 1 - i else i)).
      destruct (if_little f) eqn:El.
      + replace (if_D f - 1 - (if_D f - 1 - i)) with i in S by lia. apply S. lia.
      + apply S. lia.
    - intros k Hk. apply F. intros j Hj ->. apply Hk. destruct (if_little f); lia.
  Qed.
End Any.

Section Format.
  Variable f : integer_format.
  Variable n : Z.
  Hypothesis Hf : i_format_ok f n.
  Notation U := (i_comp_type f).
  Notation T := (i_transf_type f).
  Notation depth := (if_B f * if_D f).
  Notation al := (if_alpha f && if_alpha_first f).
  Notation rv := (if_reverse f).

  Lemma i_T : ity_ok T /\ 1 <= n <= iwidth T /\ 1 <= depth <= n /\ n <= 16.
  Proof.
    pose proof (io_n _ _ Hf) as H. unfold i_transf_width, transf_bits in H. unfold i_transf_type.
    pose proof (i_BD f (io_any _ _ Hf)) as (B1 & D1 & _).
    destruct (io_T8 _ _ Hf) as [A1 A2]. destruct (io_T16 _ _ Hf) as [A3 A4].
    unfold i_bit_depth in *. rewrite (Z.mul_comm (if_D f)) in *.
    destruct (Z.leb_spec depth 8).
    - assert (n = 8) by congruence. split; [assumption|]. split; [lia|]. split; [nia|lia].
    - destruct (Z.leb_spec depth 16); [|discriminate].
      assert (n = 16) by congruence. split; [assumption|]. split; [lia|]. split; [nia|lia].
  Qed.

  Lemma match_facts : is_transf_repr_match f = true -> if_D f = 1 /\ T = if_W f /\ depth = n /\ if_B f = n.
  Proof.
    unfold is_transf_repr_match. rewrite (io_n _ _ Hf). rewrite !andb_true_iff. intros [[H1 H2] H3].
    unfold i_bit_depth in H3. assert (if_D f = 1) by lia. split; [assumption|].
    split; [now apply (io_same _ _ Hf)|]. nia.
  Qed.

  Lemma i_map_ok i : 0 <= i < if_N f -> i_map_channel_index f i = Some (fidx (if_N f) al rv i).
  Proof.
    intros H. unfold i_map_channel_index. now replace ((0 <=? i) && (i <? if_N f)) with true by lia.
  Qed.

  (* reading a component *)
  Lemma read_comp_ok buf off cs i c : i_channels_ok f depth cs -> i_stored f buf off cs ->
    0 <= i < if_N f -> nth_error cs (Z.to_nat i) = Some c ->
    read_comp f buf off i = Some (packed_form T n (unit_scale depth n c)).
  Proof.
    intros [L C] [_ Hs] Hi Hc. pose proof (i_BD f (io_any _ _ Hf)) as (B1 & D1 & _).
    pose proof (i_U f (io_any _ _ Hf)) as (U1 & U2 & U3 & U4). pose proof i_T as (T1 & T2 & T3 & T4).
    assert (Hcr : 0 <= c < 2 ^ depth) by (rewrite Forall_forall in C; apply C; eapply nth_error_In; exact Hc).
    unfold read_comp. rewrite i_map_ok by assumption. cbn [obind].
    pose proof (fidx_range (if_N f) al rv i Hi) as Hr.
    assert (Hst : stored (if_W f) (if_B f) (if_D f) (if_little f) buf (off + fidx (if_N f) al rv i * if_D f) c).
    { specialize (Hs (Z.to_nat (fidx (if_N f) al rv i)) c). rewrite Z2Nat.id in Hs by lia. apply Hs.
      rewrite <- Hc. replace (if_N f) with (Z.of_nat (length cs)) by lia. apply nth_field. lia. }
    destruct (is_transf_repr_match f) eqn:Em.
    - destruct (match_facts Em) as (E1 & E2 & E3 & E4).
      rewrite rd_word. specialize (Hst 0 ltac:(lia)). rewrite Z.add_0_r in Hst. rewrite Hst. rewrite E3, unit_scale_self by (rewrite <- ?E3; lia).
      rewrite E2, E4. do 2 f_equal.
      replace (if if_little f then 0 else if_D f - 1 - 0) with 0 by (destruct (if_little f); lia).
      unfold digit. rewrite Z.mul_0_r, Z.div_1_r. apply Z.mod_small. rewrite <- E3. assumption.
    - rewrite (assemble_comp_ok f (io_any _ _ Hf) buf _ c Hcr) by (assumption || nia). cbn [obind].
      rewrite (io_n _ _ Hf). cbn [obind]. unfold i_bit_depth. rewrite (Z.mul_comm (if_D f)).
      rewrite <- (packed_small U depth c) at 1 by (assumption || lia).
      apply int_to_int_spec; try assumption; lia.
  Qed.

  Lemma read_comps_ok buf off cs : i_channels_ok f depth cs -> i_stored f buf off cs ->
    forall k i, Z.of_nat k = if_N f - i -> 0 <= i ->
    read_comps f k i buf off =
      Some (skipn (Z.to_nat i) (i_tray_pixel f n (map (unit_scale depth n) cs))).
  Proof.
    intros Hc Hs. pose proof Hc as [L _]. pose proof (ia_N _ (io_any _ _ Hf)) as HN.
    assert (L2 : length (i_tray_pixel f n (map (unit_scale depth n) cs)) = length cs)
      by (unfold i_tray_pixel; rewrite !map_length; reflexivity).
    induction k as [|k IH]; intros i Hk Hi; cbn [read_comps].
    - rewrite skipn_all2 by lia. reflexivity.
    - destruct (nth_error cs (Z.to_nat i)) as [c|] eqn:Ec; [|apply nth_error_None in Ec; lia].
      rewrite (read_comp_ok buf off cs i c) by (try assumption; lia). cbn [obind]. rewrite IH by lia. cbn [obind]. f_equal.
      set (l := i_tray_pixel f n (map (unit_scale depth n) cs)) in *.
      assert (E : nth_error l (Z.to_nat i) = Some (packed_form T n (unit_scale depth n c))).
      { unfold l, i_tray_pixel. rewrite !nth_error_map, Ec. reflexivity. }
      destruct (nth_error_split _ _ E) as (l1 & l2 & El & L1). rewrite El, <- L1.
      replace (Z.to_nat (i + 1)) with (length l1 + 1)%nat by lia.
      rewrite !skipn_app, skipn_all, Nat.sub_diag. rewrite skipn_all2 by lia.
      replace (length l1 + 1 - length l1)%nat with 1%nat by lia. reflexivity.
  Qed.

  Lemma i_read_pixel_ok buf off cs : i_channels_ok f depth cs -> i_stored f buf off cs ->
    i_read_pixel f buf off = Some (i_tray_pixel f n (map (unit_scale depth n) cs)).
  Proof.
    intros Hc Hs. pose proof (ia_N _ (io_any _ _ Hf)). unfold i_read_pixel.
    rewrite (read_comps_ok buf off cs Hc Hs) by lia. reflexivity.
  Qed.

  (* writing a component *)
  Lemma write_comp_ok buf off i c : 0 <= c < 2 ^ n -> 0 <= i < if_N f -> 0 <= off ->
    off + if_N f * if_D f <= Z.of_nat (length buf) ->
    let ptr := off + fidx (if_N f) al rv i * if_D f in
    exists buf', write_comp f (packed_form T n c) buf off i = Some buf' /\ length buf' = length buf /\
      stored (if_W f) (if_B f) (if_D f) (if_little f) buf' ptr (unit_scale n depth c) /\
      forall k, ~ (ptr <= k < ptr + if_D f) -> word buf' k = word buf k.
  Proof.
    intros Hc Hi Ho Hl ptr. pose proof (i_BD f (io_any _ _ Hf)) as (B1 & D1 & _).
    pose proof (i_U f (io_any _ _ Hf)) as (U1 & U2 & U3 & U4). pose proof i_T as (T1 & T2 & T3 & T4).
    pose proof (fidx_range (if_N f) al rv i Hi) as Hr.
    unfold write_comp. rewrite i_map_ok by assumption. cbn [obind]. fold ptr.
    assert (Hp : 0 <= ptr /\ ptr + if_D f <= Z.of_nat (length buf)) by (unfold ptr; nia).
    destruct (is_transf_repr_match f) eqn:Em.
    - destruct (match_facts Em) as (E1 & E2 & E3 & E4).
      destruct (wr_ok buf ptr (packed_form T n c)) as (b & E & L & N); [lia|]. exists b. split; [exact E|]. split; [exact L|].
      split.
      + intros k Hk. assert (k = 0) by lia. subst k. rewrite Z.add_0_r, N, Z.eqb_refl.
        rewrite E3, unit_scale_self by lia. rewrite E2, E4. do 2 f_equal.
        replace (if if_little f then 0 else if_D f - 1 - 0) with 0 by (destruct (if_little f); lia).
        unfold digit. rewrite Z.mul_0_r, Z.div_1_r. symmetry. now apply Z.mod_small.
      + intros k Hk. rewrite N. replace (k =? ptr) with false by lia. reflexivity.
    - rewrite (io_n _ _ Hf). cbn [obind]. unfold i_bit_depth. rewrite (Z.mul_comm (if_D f)).
      rewrite int_to_int_spec by (try assumption; lia). cbn [obind].
      rewrite packed_small by (assumption || lia).
      apply split_comp_ok; [exact (io_any _ _ Hf)|apply unit_scale_range; lia|lia|lia].
  Qed.

  Lemma write_comps_ok cs off : i_channels_ok f n cs -> 0 <= off ->
    forall k i buf, Z.of_nat k = if_N f - i -> 0 <= i -> off + if_N f * if_D f <= Z.of_nat (length buf) ->
    exists buf', write_comps f k i (i_tray_pixel f n cs) buf off = Some buf' /\ length buf' = length buf /\
      (forall i' c, i <= i' < if_N f -> nth_error cs (Z.to_nat i') = Some c ->
         stored (if_W f) (if_B f) (if_D f) (if_little f) buf' (off + fidx (if_N f) al rv i' * if_D f) (unit_scale n depth c)) /\
      (forall w, (forall i', i <= i' < if_N f ->
          ~ (off + fidx (if_N f) al rv i' * if_D f <= w < off + fidx (if_N f) al rv i' * if_D f + if_D f)) ->
         word buf' w = word buf w).
  Proof.
    intros [L C] Ho. pose proof (i_BD f (io_any _ _ Hf)) as (B1 & D1 & _).
    induction k as [|k IH]; intros i buf Hk Hi Hl; cbn [write_comps].
    - exists buf. split; [reflexivity|]. split; [reflexivity|]. split; [lia|]. intros; reflexivity.
    - destruct (nth_error cs (Z.to_nat i)) as [c|] eqn:Ec; [|apply nth_error_None in Ec; lia].
      assert (Hcr : 0 <= c < 2 ^ n) by (rewrite Forall_forall in C; apply C; eapply nth_error_In; exact Ec).
      unfold rd. replace (0 <=? i) with true by lia. unfold i_tray_pixel at 1. rewrite nth_error_map, Ec. cbn [option_map obind].
      destruct (write_comp_ok buf off i c Hcr ltac:(lia) Ho Hl) as (b1 & E1 & L1 & S1 & F1). rewrite E1. cbn [obind].
      destruct (IH (i + 1) b1) as (b2 & E2 & L2 & S2 & F2); try lia.
      exists b2. split; [exact E2|]. split; [lia|]. split.
      + intros i' c' Hi' Hc'. destruct (Z.eq_dec i' i) as [->|]; [|apply S2; (assumption || lia)].
        assert (c' = c) by congruence. subst c'. intros d Hd. rewrite F2; [now apply S1|].
        intros i'' Hi'' Hw.
        assert (fidx (if_N f) al rv i'' = fidx (if_N f) al rv i) as E by nia.
        apply fidx_inj in E; lia.
      + intros w Hw. rewrite F2 by (intros; apply Hw; lia). apply F1. apply Hw. lia.
  Qed.

  Lemma i_write_pixel_ok cs buf off : i_channels_ok f n cs -> 0 <= off ->
    off + if_N f * if_D f <= Z.of_nat (length buf) ->
    exists buf', i_write_pixel f (i_tray_pixel f n cs) buf off = Some buf' /\ length buf' = length buf /\
      i_stored f buf' off (map (unit_scale n depth) cs) /\
      forall k, ~ (off <= k < off + if_N f * if_D f) -> word buf' k = word buf k.
  Proof.
    intros Hcs Ho Hl. pose proof (ia_N _ (io_any _ _ Hf)) as HN. pose proof (i_BD f (io_any _ _ Hf)) as (B1 & D1 & _).
    destruct (write_comps_ok cs off Hcs Ho (Z.to_nat (if_N f)) 0 buf) as (b & E & L & S & F); try lia.
    destruct Hcs as [Lc _].
    exists b. split; [exact E|]. split; [exact L|]. split; [split|].
    - rewrite map_length. assumption.
    - intros j v Hv.
      assert (Hj : (j < length cs)%nat).
      { replace (length cs) with (length (i_order_to (map (unit_scale n depth) cs) f)) by (rewrite to_field_length, map_length; reflexivity).
        apply nth_error_Some. congruence. }
      destruct (fidx_sur (if_N f) al rv (Z.of_nat j)) as (i & Hi & Ei); [lia|].
      rewrite <- (Nat2Z.id j), <- Ei in Hv.
      replace (if_N f) with (Z.of_nat (length (map (unit_scale n depth) cs))) in Hv at 1 by (rewrite map_length; lia).
      rewrite nth_field in Hv by (rewrite map_length; lia). rewrite nth_error_map in Hv.
      destruct (nth_error cs (Z.to_nat i)) as [c|] eqn:Ec; [|discriminate]. cbn [option_map] in Hv.
      assert (v = unit_scale n depth c) by congruence. subst v. rewrite <- Ei. apply S; [lia|assumption].
    - intros k Hk. apply F. intros i Hi Hw. pose proof (fidx_range (if_N f) al rv i Hi). nia.
  Qed.

  Definition i_enc (p : list Z) : list Z := map (fun v => unit_scale n depth (v mod 2 ^ n)) p.
  Definition i_okp (p : list Z) : Prop := exists cs, i_channels_ok f n cs /\ p = i_tray_pixel f n cs.

  Lemma i_enc_tray cs : i_channels_ok f n cs -> i_enc (i_tray_pixel f n cs) = map (unit_scale n depth) cs.
  Proof.
    intros [_ C]. unfold i_enc, i_tray_pixel. rewrite map_map.
    apply map_ext_in. intros c Hc. rewrite Forall_forall in C. pose proof i_T. rewrite packed_mod; [reflexivity|lia|now apply C].
  Qed.

  Lemma i_stored_local b b' o o' q :
    (forall i, 0 <= i < if_N f * if_D f -> word b' (o' + i) = word b (o + i)) ->
    i_stored f b o q -> i_stored f b' o' q.
  Proof.
    intros H [L Hs]. pose proof (i_BD f (io_any _ _ Hf)) as (B1 & D1 & _). pose proof (ia_N _ (io_any _ _ Hf)) as HN.
    split; [assumption|]. intros j v Hv i Hi.
    assert (Hj : (j < length q)%nat) by (rewrite <- (to_field_length al rv q); apply nth_error_Some; congruence).
    rewrite <- Z.add_assoc, H by nia. rewrite Z.add_assoc. now apply Hs.
  Qed.

  Lemma i_fmt_write p b o : i_okp p -> 0 <= o -> o + if_N f * if_D f <= Z.of_nat (length b) ->
    exists b', i_write_pixel f p b o = Some b' /\ length b' = length b /\ i_stored f b' o (i_enc p) /\
      forall k, ~ (o <= k < o + if_N f * if_D f) -> word b' k = word b k.
  Proof.
    intros (cs & Hcs & ->) Ho Hl. rewrite i_enc_tray by assumption. now apply i_write_pixel_ok.
  Qed.
End Format.
