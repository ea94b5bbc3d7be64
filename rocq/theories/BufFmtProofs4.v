(* The casts between layouts: subword formats; saving as PNG *)
From Coq Require Import ZArith Bool List Lia Permutation.
From Verif Require Import CInt IntModel PixelBoxModel BufFmtModel BufFmtSpec BufFmtProofs BufFmtProofs2 BufFmtProofs3.
From Verif Require Import ArrLib.
Import ListNotations.
Open Scope Z_scope.

Lemma sub_access_one pf m f w x y k : s_pixels f = 1 ->
  sub_access pf m f w x y k =
  bits_at ((channels (s_conf f) - 1 - place (s_conf f) k) * s_bits f) (s_bits f) (word pf m (s_type f) (y * w + x)).
Proof.
  intros H. unfold sub_access. rewrite H. rewrite !Z.div_1_r, !Z.mod_1_r. replace (w + 1 - 1) with w by lia.
  destruct (s_aligned f); f_equal; try (f_equal; destruct (s_order f); lia).
Qed.

Lemma place_one c k : conf_ok c -> channels c = 1 -> 0 <= k < 1 -> place c k = 0.
Proof. intros Hc H Hk. pose proof (place_range c k Hc). lia. Qed.

Lemma sub_to_int_ok pf f wt : platform_ok pf -> format_t (FSub f) ->
  cast_ok (sub_format_ok pf f) (int_good pf (FSub f) wt) (sub_to_int pf f wt).
Proof.
  intros Hpf Ht. destruct (sub_valid_ok pf f Hpf Ht) as (v & Ev & Hv). unfold sub_to_int. rewrite Ev. cbn [obind].
  destruct v; cbn [negb].
  2:{ apply cast_throws. intros H. apply Hv in H. discriminate. }
  assert (Hok : sub_format_ok pf f) by (now apply Hv). pose proof Hok as (O1 & O2 & O3).
  pose proof Ht as (B & W & Hc). rewrite num_channels_ok by assumption. cbn [obind].
  pose proof (channels_pos _ Hc) as Hcp. set (n := channels (s_conf f)) in *. 
  pose proof Hpf as (_ & _ & Hp & _). destruct (Hp (s_type f)) as (_ & Hbits & Hmax).
  assert (Hsame : (forall m i, word pf m wt i = word pf m (s_type f) i) -> nbits pf wt = nbits pf (s_type f) ->
    cast_ok (sub_format_ok pf f) (int_good pf (FSub f) wt)
     (if (1 <? n) || (1 <? s_pixels f) then Some No else Some (Yes (IntFormat wt (s_bits f) 1 Big (s_conf f))))).
  { intros Hword Hnb. destruct ((1 <? n) || (1 <? s_pixels f)) eqn:E; [now apply cast_no|].
    assert (n = 1 /\ s_pixels f = 1) as [En Es] by lia. apply cast_yes; [exact Hok|]. split; [reflexivity|]. split.
    { unfold int_format_ok. cbn [i_type i_bits i_words]. rewrite Hnb. nia. }
    intros _. split; [reflexivity|]. split; [reflexivity|]. cbn [format_conf i_conf]. fold n. intros k Hk. split; [cbn [depth i_bits i_words]; lia|].
    intros m w x y Hm Hx Hy. cbn [access]. rewrite sub_access_one by assumption. unfold int_access.
    cbn [i_type i_bits i_words i_order i_conf]. rewrite sequence_single, assemble_single. fold n.
    rewrite (place_one (s_conf f) k) by (auto; lia). rewrite En, Hword. rewrite <- bits_at_0. f_equal. f_equal. lia. }
  destruct (itype_eqb wt (s_type f)) eqn:Et.
  { apply itype_eqb_eq in Et. subst wt. now apply Hsame. }
  destruct (itype_eqb wt Byte) eqn:Ewt; cbn [negb]; [|now apply cast_no].
  apply itype_eqb_eq in Ewt. subst wt.
  pose proof (bpw_pos pf (s_type f) Hpf) as HB. pose proof (bpw_max pf (s_type f) Hpf) as HB'.
  destruct (1 <? bytes_per_word pf (s_type f)) eqn:Eb.
  - assert (M1 : s_bits f * n <= s_pixels f * n * s_bits f) by nia.
    rewrite imul_ok by nia. cbn [obind]. rewrite imul_ok by nia. cbn [obind].
    destruct (all_bits_used (bytes_per_word pf (s_type f)) (s_bits f * n * s_pixels f)) eqn:Ea; cbn [negb]; [|now apply cast_no].
    apply all_bits_ok in Ea; [|assumption..].
    destruct (Z.rem (s_bits f) 8 =? 0) eqn:E8; cbn [negb]; [|now apply cast_no].
    destruct (byte_order_ok pf (s_type f) Hpf) as (r & Er & Hr); [unfold bytes_per_word in Eb; lia|]. rewrite Er. cbn [obind].
    destruct r as [e|]; [|now apply cast_no]. destruct (proj1 (Hr e) eq_refl) as [_ He].
    destruct ((1 <? s_pixels f) && (negb (endian_eqb e (s_order f)) || s_aligned f)) eqn:Eo; [now apply cast_no|].
    set (conf := if endian_eqb e Little then conf_reverse (s_conf f) else s_conf f).
    apply cast_yes; [exact Hok|]. split; [reflexivity|]. split.
    { unfold int_format_ok. cbn [i_type i_bits i_words]. rewrite byte_bits by assumption. lia. }
    intros [G1 G2]. fold n in G1.
    split; [unfold conf; cbn [format_conf i_conf]; destruct (endian_eqb e Little); reflexivity|].
    split; [unfold conf; cbn [format_conf i_conf]; destruct (endian_eqb e Little); reflexivity|].
    cbn [format_conf i_conf]. fold n. intros k Hk. rewrite G1, G2 in Ea. split; [cbn [depth i_bits i_words]; lia|].
    intros m w x y Hm Hx Hy. cbn [access]. rewrite sub_access_one by assumption. unfold int_access.
    cbn [i_type i_bits i_words i_order i_conf].
    replace (place conf k) with 0.
    2:{ unfold conf. destruct (endian_eqb e Little); [rewrite reverse_place|]; fold n; rewrite (place_one (s_conf f) k) by (auto; lia); lia. }
    replace (channels conf) with 1 by (unfold conf; destruct (endian_eqb e Little); fold n; cbn; auto).
    fold n. rewrite (place_one (s_conf f) k) by (auto; lia). rewrite G1. change ((1 - 1 - 0) * s_bits f) with 0. rewrite bits_at_0.
    pose proof (words_bytes pf m (s_type f) e e 1 (y * w + x) Hpf Hm He ltac:(lia) ltac:(now left)) as H.
    rewrite sequence_single, assemble_single in H. replace (s_bits f) with (8 * bytes_per_word pf (s_type f)) by lia.
    rewrite Z.add_0_r in H. rewrite H. rewrite Z.mul_1_l. f_equal. apply sequence_ext. intros j _. do 2 f_equal. lia.
  - destruct (bpw_one pf (s_type f) Hpf ltac:(lia)) as [Hb1 Hb8]. apply Hsame.
    + intros m i. apply word_same; [assumption|lia].
    + rewrite Hb8. now apply byte_bits.
Qed.

Lemma int_to_sub_ok pf f wt : platform_ok pf -> format_t (FInt f) ->
  cast_ok (int_format_ok pf f) (sub_good pf (FInt f) wt) (int_to_sub pf f wt).
Proof.
  intros Hpf (B & W & Hc). destruct (int_valid_ok pf f B W) as (v & Ev & Hv). unfold int_to_sub. rewrite Ev. cbn [obind].
  destruct v; cbn [negb].
  2:{ apply cast_throws. intros H. apply Hv in H. discriminate. }
  assert (Hok : int_format_ok pf f) by (now apply Hv). pose proof Hok as (O1 & O2 & O3 & O4).
  destruct (negb (itype_eqb wt (i_type f)) && (negb (itype_eqb wt Byte) || (1 <? bytes_per_word pf (i_type f)))) eqn:Et; [now apply cast_no|].
  assert (Hword : (forall m i, word pf m wt i = word pf m (i_type f) i) /\ nbits pf wt = nbits pf (i_type f)).
  { destruct (itype_eqb wt (i_type f)) eqn:E1.
    - apply itype_eqb_eq in E1. subst wt. auto.
    - cbn [negb andb] in Et. destruct (itype_eqb wt Byte) eqn:E2; [|discriminate]. apply itype_eqb_eq in E2. subst wt.
      cbn [negb orb] in Et. destruct (bpw_one pf (i_type f) Hpf ltac:(lia)) as [Hb1 Hb8]. split.
      + intros m i. apply word_same; [assumption|lia].
      + rewrite Hb8. now apply byte_bits. }
  destruct Hword as [Hword Hnb].
  rewrite num_channels_ok by assumption. cbn [obind]. pose proof (channels_pos _ Hc) as Hcp.
  destruct ((1 <? channels (i_conf f)) || (1 <? i_words f)) eqn:E; [now apply cast_no|].
  apply cast_yes; [exact Hok|]. split; [reflexivity|]. split.
  { unfold sub_format_ok. cbn [s_type s_bits s_pixels s_conf]. rewrite Hnb. assert (channels (i_conf f) = 1) by lia. lia. }
  split; [reflexivity|]. split; [reflexivity|]. cbn [format_conf s_conf]. intros k Hk.
  assert (En : channels (i_conf f) = 1) by lia. assert (Ew : i_words f = 1) by lia. split; [cbn [depth s_bits]; lia|].
  intros m w x y Hm Hx Hy. cbn [access]. rewrite sub_access_one by reflexivity. unfold int_access.
  cbn [s_type s_bits s_conf]. rewrite Ew, sequence_single, assemble_single.
  rewrite (place_one (i_conf f) k) by (auto; lia). rewrite En, Hword. change ((1 - 1 - 0) * i_bits f) with 0. rewrite bits_at_0. do 2 f_equal. lia.
Qed.

Lemma no_gap_shift v l : (forall g, In g l -> fwidth g = v /\ fgap g = 0) -> forall s, (s < length l)%nat ->
  field_shift l s = (Z.of_nat (length l) - 1 - Z.of_nat s) * v.
Proof.
  intros H. induction l as [|g l IH]; intros s Hs; [cbn in Hs; lia|]. destruct s as [|s].
  - unfold field_shift. cbn [skipn nth]. destruct (H g (or_introl eq_refl)) as [_ ->].
    assert (E : forall l, (forall g, In g l -> fwidth g = v /\ fgap g = 0) -> fold_right Z.add 0 (map (fun g => fwidth g + fgap g) l) = Z.of_nat (length l) * v).
    { clear. induction l as [|g l IH]; intros H; [cbn; lia|]. cbn [map fold_right length]. rewrite IH by (intros; apply H; now right).
      destruct (H g (or_introl eq_refl)) as [-> ->]. lia. }
    rewrite E by (intros; apply H; now right). cbn [length]. rewrite Z.add_0_r. f_equal. lia.
  - change (field_shift (g :: l) (S s)) with (field_shift l s). rewrite IH; [|intros; apply H; now right|cbn [length] in Hs; lia].
    cbn [length]. f_equal. lia.
Qed.

Lemma packed_to_sub_ok pf f wt : platform_ok pf -> format_t (FPacked f) ->
  cast_ok (packed_format_ok pf f) (sub_good pf (FPacked f) wt) (packed_to_sub pf f wt).
Proof.
  intros Hpf Ht. destruct (packed_valid_ok pf f Ht) as (v & Ev & Hv). unfold packed_to_sub. rewrite Ev. cbn [obind].
  destruct v; cbn [negb].
  2:{ apply cast_throws. intros H. apply Hv in H. discriminate. }
  assert (Hok : packed_format_ok pf f) by (now apply Hv). pose proof Hok as (O1 & O2 & O3 & O4 & O5 & O6 & O7).
  pose proof Ht as (B & W & Hc & Hl & Hg).
  destruct (negb (itype_eqb wt (p_type f)) && (negb (itype_eqb wt Byte) || (1 <? bytes_per_word pf (p_type f)))) eqn:Et; [now apply cast_no|].
  assert (Hword : (forall m i, word pf m wt i = word pf m (p_type f) i) /\ nbits pf wt = nbits pf (p_type f)).
  { destruct (itype_eqb wt (p_type f)) eqn:E1.
    - apply itype_eqb_eq in E1. subst wt. auto.
    - cbn [negb andb] in Et. destruct (itype_eqb wt Byte) eqn:E2; [|discriminate]. apply itype_eqb_eq in E2. subst wt.
      cbn [negb orb] in Et. destruct (bpw_one pf (p_type f) Hpf ltac:(lia)) as [Hb1 Hb8]. split.
      + intros m i. apply word_same; [assumption|lia].
      + rewrite Hb8. now apply byte_bits. }
  destruct Hword as [Hword Hnb]. clear Et.
  destruct (1 <? p_words f) eqn:Ew; [now apply cast_no|]. assert (Ew1 : p_words f = 1) by lia.
  rewrite num_channels_ok by assumption. cbn [obind]. pose proof (channels_pos _ Hc) as Hcp.
  set (n := channels (p_conf f)) in *. assert (Hn : n = channels (p_conf f)) by reflexivity. clearbody n.
  replace (0 <? n) with true by lia. cbn [assert obind].
  destruct (firstn (Z.to_nat n) (p_fields f)) as [|f0 rest] eqn:E.
  { pose proof (firstn_length (Z.to_nat n) (p_fields f)) as H. rewrite E, Hl in H. cbn [length] in H. lia. }
  destruct (fields_first pf f f0 rest n Ht Hn Hok E) as (Hlen & Hin & Hsum).
  destruct (forallb (fun g => (fwidth g =? fwidth f0) && (fgap g =? 0)) (f0 :: rest)) eqn:Ef; cbn [negb]; [|now apply cast_no].
  rewrite forallb_forall in Ef.
  assert (Hreg : forall g, In g (f0 :: rest) -> fwidth g = fwidth f0 /\ fgap g = 0) by (intros g H; specialize (Ef g H); lia).
  assert (Hll : length (f0 :: rest) = Z.to_nat n) by (cbn [length]; lia).
  destruct (Hin f0 (or_introl eq_refl)) as (_ & _ & F1 & _).
  assert (Hfit : n * fwidth f0 <= p_bits f).
  { pose proof (no_gap_shift (fwidth f0) (f0 :: rest) Hreg 0%nat ltac:(lia)) as H. unfold field_shift in H. cbn [skipn nth] in H.
    fold (fields_width rest) in H. change (fields_width (f0 :: rest)) with (fwidth f0 + fgap f0 + fields_width rest) in Hsum. nia. }
  apply cast_yes; [exact Hok|]. split; [reflexivity|]. split.
  { unfold sub_format_ok. cbn [s_type s_bits s_pixels s_conf]. rewrite Hnb, <- Hn. lia. }
  split; [reflexivity|]. split; [reflexivity|]. cbn [format_conf s_conf]. rewrite <- Hn. intros k Hk.
  assert (Hs : 0 <= place (p_conf f) k < n) by (rewrite Hn; apply place_range; [assumption|lia]).
  assert (Hnth : In (nth (Z.to_nat (place (p_conf f) k)) (f0 :: rest) (Field 0 0)) (f0 :: rest)) by (apply nth_In; lia).
  split; [cbn [depth s_bits]; rewrite <- Hn, E; symmetry; now apply Hreg|].
  intros m w x y Hm Hx Hy. cbn [access]. rewrite sub_access_one by reflexivity. unfold packed_access.
  cbn [s_type s_bits s_conf]. rewrite <- Hn, E, Ew1, sequence_single, assemble_single.
  rewrite (proj1 (Hreg _ Hnth)). rewrite (no_gap_shift (fwidth f0)) by (auto; lia). rewrite Hll.
  rewrite bits_at_low by nia. rewrite Hword. f_equal; [nia|f_equal; lia].
Qed.

Lemma sub_to_sub_ok pf f wt : platform_ok pf -> format_t (FSub f) ->
  cast_ok (sub_format_ok pf f) (sub_good pf (FSub f) wt) (sub_to_sub pf f wt).
Proof.
  intros Hpf Ht. destruct (sub_valid_ok pf f Hpf Ht) as (v & Ev & Hv). unfold sub_to_sub. rewrite Ev. cbn [obind].
  destruct v; cbn [negb].
  2:{ apply cast_throws. intros H. apply Hv in H. discriminate. }
  assert (Hok : sub_format_ok pf f) by (now apply Hv). pose proof Hok as (O1 & O2 & O3).
  pose proof Ht as (B & W & Hc). pose proof (channels_pos _ Hc) as Hcp.
  pose proof Hpf as (_ & _ & Hp & _). destruct (Hp (s_type f)) as (_ & Hbits & Hmax).
  destruct (itype_eqb wt (s_type f)) eqn:Et.
  { apply itype_eqb_eq in Et. subst wt. apply cast_yes; [exact Hok|]. destruct f as [a1 a2 a3 a4 a5 a6]; cbn [s_type s_bits s_pixels s_order s_aligned s_conf] in *.
    split; [reflexivity|]. split; [exact Hok|]. split; [reflexivity|]. split; [reflexivity|]. intros k Hk. split; reflexivity. }
  destruct (itype_eqb wt Byte) eqn:Ewt; cbn [negb]; [|now apply cast_no].
  apply itype_eqb_eq in Ewt. subst wt.
  pose proof (bpw_pos pf (s_type f) Hpf) as HB. pose proof (bpw_max pf (s_type f) Hpf) as HB'.
  destruct (1 <? bytes_per_word pf (s_type f)) eqn:Eb.
  - rewrite num_channels_ok by assumption. cbn [obind]. set (n := channels (s_conf f)) in *.
    assert (M1 : s_bits f * n <= s_pixels f * n * s_bits f) by nia.
    rewrite imul_ok by nia. cbn [obind]. rewrite imul_ok by nia. cbn [obind].
    set (bpw := bytes_per_word pf (s_type f)) in *.
    destruct (all_bits_used bpw (s_bits f * n * s_pixels f)) eqn:Ea; cbn [negb]; [|now apply cast_no].
    apply all_bits_ok in Ea; [|assumption..].
    unfold idiv, irem. replace (bpw =? 0) with false by lia. cbn [obind].
    assert (Hppb : s_pixels f = bpw * Z.quot (s_pixels f) bpw + Z.rem (s_pixels f) bpw) by apply Z.quot_rem'.
    set (ppb := Z.quot (s_pixels f) bpw) in *. clearbody ppb.
    destruct (Z.rem (s_pixels f) bpw =? 0) eqn:Em; cbn [negb]; [|now apply cast_no].
    apply Z.eqb_eq in Em. rewrite Em, Z.add_0_r in Hppb.
    destruct (byte_order_ok pf (s_type f) Hpf) as (r & Er & Hr); [unfold bpw, bytes_per_word in Eb; lia|]. rewrite Er. cbn [obind].
    destruct r as [e|]; [|now apply cast_no]. destruct (proj1 (Hr e) eq_refl) as [_ He].
    destruct (endian_eqb e (s_order f)) eqn:Eo; cbn [negb]; [|now apply cast_no]. apply endian_eqb_eq in Eo. subst e.
    destruct (s_aligned f) eqn:Eal; [now apply cast_no|].
    assert (H8 : ppb * n * s_bits f = 8) by nia. assert (Hppb1 : 1 <= ppb) by nia.
    apply cast_yes; [exact Hok|]. split; [reflexivity|]. split.
    { unfold sub_format_ok. cbn [s_type s_bits s_pixels s_conf]. fold n. rewrite byte_bits by assumption. lia. }
    split; [reflexivity|]. split; [reflexivity|]. cbn [format_conf s_conf]. fold n. intros k Hk. split; [reflexivity|].
    intros m w x y Hm Hx Hy. cbn [access]. unfold sub_access. cbn [s_type s_bits s_pixels s_order s_aligned s_conf]. rewrite Eal. fold n.
    assert (Hpl : 0 <= place (s_conf f) k < n) by (apply place_range; assumption).
    set (pos := y * w + x). assert (Hpos : 0 <= pos) by (unfold pos; nia).
    rewrite (word_native pf m (s_type f) (pos / s_pixels f) (s_order f) He). fold bpw. rewrite word_byte by assumption.
    set (L := sequence bpw (fun j => m (pos / s_pixels f * bpw + j))).
    assert (HL : Z.of_nat (length L) = bpw) by (apply sequence_length; lia).
    (* the byte that contains the pixel *)
    assert (Hdiv : pos / ppb = pos / s_pixels f * bpw + (pos mod s_pixels f) / ppb).
    { rewrite Hppb. rewrite (Z.mul_comm bpw), <- Z.div_div by lia. rewrite Z.rem_mul_r by lia.
      replace (pos mod ppb + ppb * (pos / ppb mod bpw)) with (pos / ppb mod bpw * ppb + pos mod ppb) by lia.
      rewrite Z.div_add_l by lia. rewrite (Z.div_small (pos mod ppb)) by (apply Z.mod_pos_bound; lia).
      pose proof (Z.div_mod (pos / ppb) bpw ltac:(lia)). lia. }
    assert (Hmod : pos mod ppb = (pos mod s_pixels f) mod ppb).
    { rewrite Hppb. rewrite (Z.mul_comm bpw), Z.rem_mul_r by lia. rewrite Z.add_mod, (Z.mul_comm ppb), Z.mod_mul, Z.add_0_r, !Z.mod_mod by lia. reflexivity. }
    set (t := pos mod s_pixels f) in *. assert (Hr' : 0 <= t < s_pixels f) by (apply Z.mod_pos_bound; lia).
    set (q := t / ppb) in *. assert (Hq : 0 <= q < bpw) by (unfold q; split; [apply Z.div_pos; lia|apply Z.div_lt_upper_bound; lia]).
    assert (Ht' : t = ppb * q + t mod ppb) by (apply Z.div_mod; lia). rewrite <- Hmod in Ht'.
    pose proof (Z.mod_pos_bound pos ppb ltac:(lia)) as Hr2. set (t2 := pos mod ppb) in *. clearbody t2.
    set (c := n - 1 - place (s_conf f) k). assert (Hcc : 0 <= c < n) by (unfold c; lia).
    set (p2 := match s_order f with Big => ppb - 1 - t2 | Little => t2 end).
    assert (Hp2 : 0 <= p2 < ppb) by (unfold p2; destruct (s_order f); lia).
    transitivity (bits_at (signif (s_order f) (Z.of_nat (length L)) q * 8 + (p2 * n + c) * s_bits f) (s_bits f) (assemble (s_order f) (2 ^ 8) L)).
    + rewrite bits_of_digit; [| |unfold L; apply sequence_digits; intros; apply Hm|lia|nia|lia|].
      * unfold L. rewrite sequence_nth by assumption. rewrite Hdiv. reflexivity.
      * lia.
      * assert ((p2 * n + c + 1) <= ppb * n) by nia. nia.
    + change (2 ^ 8) with 256. f_equal. rewrite HL. unfold signif, p2. rewrite <- H8. rewrite Hppb. clear - Ht'. destruct (s_order f); rewrite Ht'; ring.
  - destruct (bpw_one pf (s_type f) Hpf ltac:(lia)) as [Hb1 Hb8]. apply cast_yes; [exact Hok|].
    split; [reflexivity|]. split.
    { unfold sub_format_ok in *. cbn [s_type s_bits s_pixels s_conf]. rewrite byte_bits by assumption. rewrite Hb8 in O3. lia. }
    split; [reflexivity|]. split; [reflexivity|]. cbn [format_conf s_conf]. intros k Hk. split; [reflexivity|].
    intros m w x y Hm Hx Hy. cbn [access]. unfold sub_access. cbn [s_type s_bits s_pixels s_order s_aligned s_conf].
    destruct (s_aligned f); f_equal; apply word_same; auto; lia.
Qed.
