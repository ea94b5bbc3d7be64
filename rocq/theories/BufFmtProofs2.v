(* Lemmas on the reinterpretation of layouts *)
From Coq Require Import ZArith Bool List Lia Permutation.
From Verif Require Import CInt IntModel PixelBoxModel BufFmtModel BufFmtSpec BufFmtProofs.
From Verif Require Import ArrLib.
Import ListNotations.
Open Scope Z_scope.

Lemma imul_ok a b : - 2 ^ 31 <= a * b < 2 ^ 31 -> imul a b = Some (a * b).
Proof.
  intros H. unfold imul. replace (in_rangeb t_int (a * b)) with true; [reflexivity|]. symmetry.
  unfold in_rangeb, imin, imax, t_int. cbn [isigned iwidth]. change (32 - 1) with 31. lia.
Qed.

Lemma imul_inv a b v : imul a b = Some v -> v = a * b /\ - 2 ^ 31 <= a * b < 2 ^ 31.
Proof.
  unfold imul. destruct (in_rangeb t_int (a * b)) eqn:E; [|discriminate]. intros H. injection H as <-.
  unfold in_rangeb, imin, imax, t_int in E. cbn [isigned iwidth] in E. change (32 - 1) with 31 in E. lia.
Qed.

Lemma iadd_spec a b : iadd a b = if in_rangeb t_int (a + b) then Some (a + b) else None.
Proof. reflexivity. Qed.

Lemma rangeb_int v : in_rangeb t_int v = true <-> - 2 ^ 31 <= v < 2 ^ 31.
Proof. unfold in_rangeb, imin, imax, t_int. cbn [isigned iwidth]. change (32 - 1) with 31. lia. Qed.

Lemma int_max_eq : int_max = 2 ^ 31 - 1.
Proof. reflexivity. Qed.

Lemma quot_le a b q : 0 <= a -> 0 < b -> (q <= Z.quot a b <-> q * b <= a).
Proof.
  intros Ha Hb. rewrite Z.quot_div_nonneg by lia. split; intros H.
  - pose proof (Z.mul_div_le a b Hb). nia.
  - apply Z.div_le_lower_bound; lia.
Qed.

Lemma num_channels_ok c : conf_ok c -> num_channels c = Some (channels c).
Proof.
  intros [H1 H2]. unfold num_channels. rewrite iadd_spec. unfold channels in *.
  replace (in_rangeb t_int (cs_channels (cspace c) + (if has_alpha c then 1 else 0))) with true; [reflexivity|].
  symmetry. apply rangeb_int. destruct (has_alpha c); lia.
Qed.

Lemma channels_pos c : conf_ok c -> 1 <= channels c < 2 ^ 31.
Proof. intros [H1 H2]. unfold channels in *. destruct (has_alpha c); lia. Qed.

Lemma place_range c k : conf_ok c -> 0 <= k < channels c -> 0 <= place c k < channels c.
Proof.
  intros Hc Hk. unfold place. pose proof (Z.mod_pos_bound (k + 1) (channels c)).
  destruct (has_alpha c && alpha_first c), (rev_order c); lia.
Qed.

Lemma reverse_channels c : channels (conf_reverse c) = channels c.
Proof. reflexivity. Qed.

Lemma reverse_place c k : place (conf_reverse c) k = channels c - 1 - place c k.
Proof. unfold place. cbn [conf_reverse has_alpha alpha_first rev_order]. rewrite reverse_channels. destruct (rev_order c); cbn [negb]; lia. Qed.

Lemma int_valid_ok pf f : int_t (i_bits f) -> int_t (i_words f) ->
  exists b, int_valid pf f = Some b /\ (b = true <-> int_format_ok pf f).
Proof.
  intros [B1 B2] [W1 W2]. unfold int_valid, oand, int_format_ok. cbn [obind].
  destruct (0 <? i_bits f) eqn:E1; [|exists false; split; [reflexivity|split; [discriminate|lia]]].
  destruct (0 <? i_words f) eqn:E2; [|exists false; split; [reflexivity|split; [discriminate|lia]]].
  destruct (i_bits f <=? nbits pf (i_type f)) eqn:E3; [|exists false; split; [reflexivity|split; [discriminate|lia]]].
  unfold idiv. replace (i_bits f =? 0) with false by lia. cbn [obind].
  exists (i_words f <=? Z.quot int_max (i_bits f)). split; [reflexivity|].
  rewrite Z.leb_le, quot_le by (rewrite ?int_max_eq; lia). rewrite int_max_eq. lia.
Qed.

Lemma valid_fields_ok l avail : avail < 2 ^ 31 -> (forall g, In g l -> int_t (fwidth g) /\ int_t (fgap g)) ->
  forall total, 0 <= total < 2 ^ 31 ->
  exists b, valid_fields l total avail = Some b /\
    (b = true <-> (forall g, In g l -> 1 <= fwidth g /\ 0 <= fgap g) /\ total + fields_width l <= avail).
Proof.
  intros Ha. induction l as [|f l IH]; intros Hl total Ht.
  - exists (total <=? avail). split; [reflexivity|]. unfold fields_width. cbn [map fold_right]. rewrite Z.leb_le. split; [|lia].
    intros H. split; [intros g []|lia].
  - cbn [valid_fields]. destruct (Hl f (or_introl eq_refl)) as [[F1 F2] [G1 G2]].
    destruct ((fwidth f <? 1) || (fgap f <? 0)) eqn:E.
    { exists false. split; [reflexivity|]. split; [discriminate|]. intros [H _]. destruct (H f (or_introl eq_refl)). lia. }
    assert (Hf : fields_width (f :: l) = fwidth f + fgap f + fields_width l) by reflexivity.
    assert (Hpos : (forall g, In g (f :: l) -> 1 <= fwidth g /\ 0 <= fgap g) -> 0 <= fields_width l).
    { intros H. assert (H' : forall g, In g l -> 1 <= fwidth g /\ 0 <= fgap g) by (intros g Hg; apply H; now right).
      clear - H'. induction l as [|g l IH]; [unfold fields_width; cbn; lia|].
      change (fields_width (g :: l)) with (fwidth g + fgap g + fields_width l).
      destruct (H' g (or_introl eq_refl)). specialize (IH (fun h Hh => H' h (or_intror Hh))). lia. }
    assert (Hfalse : ~ (total + fwidth f + fgap f < 2 ^ 31) ->
      exists b, Some false = Some b /\ (b = true <-> (forall g, In g (f :: l) -> 1 <= fwidth g /\ 0 <= fgap g) /\
        total + fields_width (f :: l) <= avail)).
    { intros Hn. exists false. split; [reflexivity|]. split; [discriminate|]. intros [H1 H2]. specialize (Hpos H1). lia. }
    rewrite !iadd_spec. destruct (in_rangeb t_int (total + fwidth f)) eqn:R1.
    + rewrite iadd_spec. destruct (in_rangeb t_int (total + fwidth f + fgap f)) eqn:R2.
      * apply rangeb_int in R2. destruct (IH (fun g Hg => Hl g (or_intror Hg)) (total + fwidth f + fgap f)) as (b & Eb & Hb); [lia|].
        exists b. split; [exact Eb|]. rewrite Hb, Hf. split.
        -- intros [H1 H2]. split; [|lia]. intros g [<-|Hg]; [lia|now apply H1].
        -- intros [H1 H2]. split; [|lia]. intros g Hg. apply H1. now right.
      * apply Hfalse. intros Hn. assert (in_rangeb t_int (total + fwidth f + fgap f) = true) by (apply rangeb_int; lia). congruence.
    + apply Hfalse. intros Hn. assert (in_rangeb t_int (total + fwidth f) = true) by (apply rangeb_int; lia). congruence.
Qed.

Lemma in_firstn {A} (l : list A) n x : In x (firstn n l) -> In x l.
Proof. intros H. rewrite <- (firstn_skipn n l). apply in_or_app. now left. Qed.

Lemma packed_valid_ok pf f : format_t (FPacked f) ->
  exists b, packed_valid pf f = Some b /\ (b = true <-> packed_format_ok pf f).
Proof.
  intros ([B1 B2] & [W1 W2] & Hc & Hl & Hg). unfold packed_valid, oand, packed_format_ok. rewrite num_channels_ok by assumption. cbn [obind].
  destruct (0 <? p_bits f) eqn:E1; [|exists false; split; [reflexivity|split; [discriminate|lia]]].
  destruct (0 <? p_words f) eqn:E2; [|exists false; split; [reflexivity|split; [discriminate|lia]]].
  destruct (p_bits f <=? nbits pf (p_type f)) eqn:E3; [|exists false; split; [reflexivity|split; [discriminate|lia]]].
  unfold idiv. replace (p_bits f =? 0) with false by lia. cbn [obind].
  destruct (p_words f <=? Z.quot int_max (p_bits f)) eqn:E4.
  2:{ exists false. split; [reflexivity|]. split; [discriminate|]. intros (_ & _ & _ & H & _).
      apply Z.leb_gt in E4. assert (p_words f <= Z.quot int_max (p_bits f)); [|lia]. apply quot_le; rewrite ?int_max_eq; lia. }
  apply Z.leb_le in E4. apply quot_le in E4; [|rewrite int_max_eq; lia|lia]. rewrite int_max_eq in E4.
  unfold max_bit_fields. destruct (channels (p_conf f) <=? 8) eqn:E5; [|exists false; split; [reflexivity|split; [discriminate|lia]]].
  rewrite imul_ok by nia. cbn [obind].
  destruct (valid_fields_ok (firstn (Z.to_nat (channels (p_conf f))) (p_fields f)) (p_words f * p_bits f)) with (total := 0) as (b & Eb & Hb);
    [lia|intros g Hin; apply Hg; eauto using in_firstn|lia|].
  exists b. split; [exact Eb|]. rewrite Hb. rewrite Z.add_0_l. intuition lia.
Qed.

Lemma sub_valid_ok pf f : platform_ok pf -> format_t (FSub f) ->
  exists b, sub_valid pf f = Some b /\ (b = true <-> sub_format_ok pf f).
Proof.
  intros (_ & _ & Hp & _) ([B1 B2] & [W1 W2] & Hc). unfold sub_valid, oand, sub_format_ok. rewrite num_channels_ok by assumption. cbn [obind].
  pose proof (channels_pos _ Hc) as Hn. destruct (Hp (s_type f)) as (_ & Hbits & Hmax).
  destruct (0 <? s_bits f) eqn:E1; [|exists false; split; [reflexivity|split; [discriminate|lia]]].
  destruct (0 <? s_pixels f) eqn:E2; [|exists false; split; [reflexivity|split; [discriminate|lia]]].
  unfold idiv at 1. replace (s_bits f =? 0) with false by lia. cbn [obind].
  destruct (channels (s_conf f) <=? Z.quot int_max (s_bits f)) eqn:E4.
  2:{ exists false. split; [reflexivity|]. split; [discriminate|]. intros (_ & _ & H). 
      apply Z.leb_gt in E4. assert (channels (s_conf f) <= Z.quot int_max (s_bits f)); [|lia]. apply quot_le; rewrite ?int_max_eq; nia. }
  apply Z.leb_le in E4. apply quot_le in E4; [|rewrite int_max_eq; lia|lia]. rewrite int_max_eq in E4.
  rewrite imul_ok by nia. cbn [obind]. unfold idiv. replace (channels (s_conf f) * s_bits f =? 0) with false by nia. cbn [obind].
  exists (s_pixels f <=? Z.quot (nbits pf (s_type f)) (channels (s_conf f) * s_bits f)). split; [reflexivity|].
  rewrite Z.leb_le, quot_le by nia. rewrite Z.mul_assoc. intuition lia.
Qed.

(* words and bytes *)
Lemma bpw_pos pf t : platform_ok pf -> 1 <= bytes_per_word pf t.
Proof. intros (_ & _ & Hp & _). destruct (Hp t). unfold bytes_per_word. lia. Qed.

Lemma word_one pf m t i : platform_ok pf -> nbytes pf t = 1%nat -> word pf m t i = m i.
Proof.
  intros (_ & H1 & _ & Hperm) Hn. destruct (Hperm t) as (_ & Hlen & Hlt). unfold word, word_value, bytes_per_word.
  rewrite (H1 t Hn), Hn. cbn [Z.of_nat Pos.of_succ_nat]. change (8 =? 8 * 1) with true. cbn iota.
  destruct (perm pf t) as [|q [|q' r]] eqn:E; [cbn in Hlen; lia| |cbn in Hlen; lia].
  assert (q = 0%nat) by (specialize (Hlt q (or_introl eq_refl)); lia). subst q. rewrite sequence_single. cbn [map nth number fold_right].
  rewrite ?Z.mul_1_r, ?Z.add_0_r, ?Z.mul_0_r, ?Z.add_0_r. reflexivity.
Qed.

Lemma word_byte pf m i : platform_ok pf -> word pf m Byte i = m i.
Proof. intros H. apply word_one; [assumption|apply H]. Qed.

Lemma word_native pf m t i e : native pf t e ->
  word pf m t i = assemble e 256 (sequence (bytes_per_word pf t) (fun j => m (i * bytes_per_word pf t + j))).
Proof.
  intros H. unfold word. apply H. pose proof (sequence_length (bytes_per_word pf t) (fun j => m (i * bytes_per_word pf t + j))).
  unfold bytes_per_word in *. lia.
Qed.

Lemma byte_order_ok pf t : platform_ok pf -> (2 <= nbytes pf t)%nat ->
  exists r, try_get_byte_order pf t = Some r /\
    forall e, r = Some e <-> nbits pf t = 8 * Z.of_nat (nbytes pf t) /\ native pf t e.
Proof.
  intros (H1 & _ & _ & Hperm) Hn. destruct (Hperm t) as (Hnd & Hlen & Hlt).
  assert (E : try_get_byte_order pf t = core_byte_order pf t) by (destruct t; cbn [try_get_byte_order]; [lia|reflexivity..]).
  rewrite E. destruct (core_byte_order_ok pf t Hnd Hlen Hn) as (r & Er & Hr). exists r. split; [exact Er|].
  intros e. rewrite Hr. split; intros [Hb H]; (split; [exact Hb|]).
  - exact (proj2 (value_perm pf t Hlen e Hb) H).
  - exact (proj1 (value_perm pf t Hlen e Hb) H).
Qed.

Lemma bytes_digits m i n : memory_ok m -> digits_ok 256 (sequence n (fun j => m (i + j))).
Proof. intros H. apply sequence_digits. intros. apply H. Qed.

Lemma pow_bytes B : 0 <= B -> 2 ^ (8 * B) = 256 ^ B.
Proof. intros. change 256 with (2 ^ 8). now rewrite <- Z.pow_mul_r by lia. Qed.

(* a group of words is a group of bytes *)
Lemma words_bytes pf m t e o wpc i : platform_ok pf -> memory_ok m -> native pf t e -> 1 <= wpc -> (wpc = 1 \/ o = e) ->
  assemble o (2 ^ (8 * bytes_per_word pf t)) (sequence wpc (fun j => low_bits (8 * bytes_per_word pf t) (word pf m t (i + j)))) =
  assemble e (2 ^ 8) (sequence (wpc * bytes_per_word pf t) (fun j => low_bits 8 (word pf m Byte (i * bytes_per_word pf t + j)))).
Proof.
  intros Hpf Hm He Hw Ho. pose proof (bpw_pos pf t Hpf) as HB. set (B := bytes_per_word pf t) in *.
  change (2 ^ 8) with 256. rewrite pow_bytes by lia.
  rewrite (sequence_ext (wpc * B) _ (fun j => m (i * B + j))).
  2:{ intros j _. rewrite word_byte by assumption. apply low_bits_small. apply Hm. }
  rewrite (sequence_ext wpc _ (fun j => assemble e 256 (sequence B (fun l => m (i * B + (j * B + l)))))).
  2:{ intros j _. rewrite (word_native pf m t (i + j) e He). fold B.
      rewrite (sequence_ext B _ (fun l => m (i * B + (j * B + l)))) by (intros l _; f_equal; lia).
      apply low_bits_small. rewrite pow_bytes by lia.
      pose proof (assemble_bound e 256 (sequence B (fun l => m (i * B + (j * B + l)))) ltac:(lia)) as Hb.
      rewrite sequence_length in Hb by lia. apply Hb. apply sequence_digits. intros. apply Hm. }
  rewrite <- (assemble_nested e 256 wpc B (fun j => m (i * B + j))) by lia.
  destruct Ho as [->| ->]; [|reflexivity]. rewrite !sequence_single, !assemble_single. reflexivity.
Qed.

(* the shifts of bit fields *)
Lemma check_shifts_ok part l : (forall g, In g l -> int_t (fwidth g) /\ 0 <= fgap g < 2 ^ 31) ->
  forall f0, 0 <= fgap f0 < 2 ^ 31 -> (forall g, In g (f0 :: l) -> 0 <= fgap g /\ 1 <= fwidth g) -> fields_width (f0 :: l) < 2 ^ 31 ->
  exists b, check_shifts (fgap f0) l part = Some b /\
    (b = true -> forall s, (s < S (length l))%nat -> field_shift (f0 :: l) s = Z.of_nat (length l - s) * part) /\
    (b = true -> forall g, In g l -> fwidth g <= part).
Proof.
  induction l as [|g l IH]; intros Hl f0 Hf0 Hw Htot.
  - cbn [check_shifts]. exists (fgap f0 =? 0). split; [reflexivity|]. split; [|intros _ g []].
    intros E s Hs. replace s with 0%nat by (cbn [length] in Hs; lia). cbn [field_shift skipn map fold_right nth length]. 
    unfold field_shift. cbn [skipn map fold_right nth]. lia.
  - cbn [check_shifts]. destruct (Hl g (or_introl eq_refl)) as [[G1 G2] G3].
    assert (Ht : fields_width (f0 :: g :: l) = fwidth f0 + fgap f0 + fields_width (g :: l)) by reflexivity.
    assert (Hg : fields_width (g :: l) = fwidth g + fgap g + fields_width l) by reflexivity.
    assert (Hpos : 0 <= fields_width l).
    { assert (H' : forall h, In h l -> 0 <= fgap h /\ 1 <= fwidth h) by (intros h Hh; apply Hw; now right; right).
      clear - H'. induction l as [|h l IH]; [unfold fields_width; cbn; lia|].
      change (fields_width (h :: l)) with (fwidth h + fgap h + fields_width l).
      destruct (H' h (or_introl eq_refl)). specialize (IH (fun x Hx => H' x (or_intror Hx))). lia. }
    destruct (Hw f0 (or_introl eq_refl)). destruct (Hw g (or_intror (or_introl eq_refl))).
    rewrite iadd_spec. replace (in_rangeb t_int (fgap f0 + fwidth g)) with true by (symmetry; apply rangeb_int; lia). cbn [obind].
    destruct (fgap f0 + fwidth g =? part) eqn:E; cbn [negb].
    + destruct (IH (fun h Hh => Hl h (or_intror Hh)) g) as (b & Eb & Hb & Hb2); [lia|intros h Hh; apply Hw; now right|lia|].
      exists b. split; [exact Eb|]. split.
      * intros Et s Hs. specialize (Hb Et). destruct s as [|s].
        -- specialize (Hb 0%nat ltac:(lia)). unfold field_shift in *. cbn [skipn map fold_right nth length] in *.
           replace (Z.of_nat (S (length l) - 0)) with (1 + Z.of_nat (length l - 0)) by lia. rewrite Z.mul_add_distr_r, <- Hb. lia.
        -- change (field_shift (f0 :: g :: l) (S s)) with (field_shift (g :: l) s). cbn [length] in *. rewrite Hb by lia. f_equal.
      * intros Et h [<-|Hh]; [lia|now apply Hb2].
    + exists false. split; [reflexivity|]. split; intros Et; discriminate Et.
Qed.

Lemma all_bits_ok B bits : 1 <= B -> 8 * B < 2 ^ 31 -> all_bits_used B bits = true <-> bits = 8 * B.
Proof. intros H1 H2. unfold all_bits_used. rewrite imul_ok by lia. lia. Qed.

Lemma itype_eqb_eq a b : itype_eqb a b = true <-> a = b.
Proof. destruct a, b; cbn; split; intros H; try reflexivity; discriminate H. Qed.
Lemma endian_eqb_eq a b : endian_eqb a b = true <-> a = b.
Proof. destruct a, b; cbn; split; intros H; try reflexivity; discriminate H. Qed.
