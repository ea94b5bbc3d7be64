(* The casts between layouts *)
From Coq Require Import ZArith Bool List Lia Permutation.
From Verif Require Import CInt IntModel PixelBoxModel BufFmtModel BufFmtSpec BufFmtProofs BufFmtProofs2.
From Verif Require Import ArrLib.
Import ListNotations.
Open Scope Z_scope.

(* What is claimed of the outcome of a cast *)
Definition cast_ok {A} (ok : Prop) (good : A -> Prop) (r : option (outcome A)) : Prop :=
  exists o, r = Some o /\ (o = Throws <-> ~ ok) /\ forall g, o = Yes g -> good g.

Lemma cast_throws {A} (ok : Prop) (good : A -> Prop) : ~ ok -> cast_ok ok good (Some Throws).
Proof. intros H. exists Throws. split; [reflexivity|]. split; [split; auto|discriminate]. Qed.
Lemma cast_no {A} (ok : Prop) (good : A -> Prop) : ok -> cast_ok ok good (Some No).
Proof. intros H. exists No. split; [reflexivity|]. split; [split; [discriminate|contradiction]|discriminate]. Qed.
Lemma cast_yes {A} (ok : Prop) (good : A -> Prop) g : ok -> good g -> cast_ok ok good (Some (Yes g)).
Proof.
  intros H Hg. exists (Yes g). split; [reflexivity|]. split; [split; [discriminate|contradiction]|].
  intros g' E. now injection E as <-.
Qed.

Lemma bpw_max pf t : platform_ok pf -> 8 * bytes_per_word pf t < 2 ^ 31.
Proof. intros (_ & _ & Hp & _). destruct (Hp t) as (_ & _ & H). exact H. Qed.

Lemma byte_bits pf : platform_ok pf -> nbits pf Byte = 8.
Proof. intros (H1 & H2 & _). auto. Qed.

Lemma bpw_one pf t : platform_ok pf -> bytes_per_word pf t <= 1 -> nbytes pf t = 1%nat /\ nbits pf t = 8.
Proof.
  intros (H1 & H2 & Hp & _) H. destruct (Hp t). unfold bytes_per_word in H.
  assert (nbytes pf t = 1%nat) by lia. auto.
Qed.

(* words of one byte *)
Lemma word_same pf m t i : platform_ok pf -> bytes_per_word pf t <= 1 -> word pf m Byte i = word pf m t i.
Proof. intros Hp H. rewrite word_byte by assumption. rewrite word_one; [reflexivity|assumption|]. now apply bpw_one. Qed.

Definition int_good (pf : platform) (f : format) (wt : itype) (g : int_format) : Prop :=
  i_type g = wt /\ int_format_ok pf g /\ (good_cast pf f wt -> same_pixels pf f (FInt g)).
Definition sub_good (pf : platform) (f : format) (wt : itype) (g : sub_format) : Prop :=
  s_type g = wt /\ sub_format_ok pf g /\ same_pixels pf f (FSub g).

Lemma int_to_int_ok pf f wt : platform_ok pf -> format_t (FInt f) ->
  cast_ok (int_format_ok pf f) (int_good pf (FInt f) wt) (int_to_int pf f wt).
Proof.
  intros Hpf (B & W & Hc). destruct (int_valid_ok pf f B W) as (v & Ev & Hv). unfold int_to_int. rewrite Ev. cbn [obind].
  destruct v; cbn [negb].
  2:{ apply cast_throws. intros H. apply Hv in H. discriminate. }
  assert (Hok : int_format_ok pf f) by (now apply Hv). pose proof Hok as (O1 & O2 & O3 & O4).
  destruct (itype_eqb wt (i_type f)) eqn:Et.
  { apply itype_eqb_eq in Et. subst wt. apply cast_yes; [exact Hok|]. destruct f as [a1 a2 a3 a4 a5]; cbn [i_type i_bits i_words i_order i_conf] in *.
    split; [reflexivity|]. split; [exact Hok|]. intros _. split; [reflexivity|]. split; [reflexivity|]. intros k Hk. split; reflexivity. }
  destruct (itype_eqb wt Byte) eqn:Ewt; cbn [negb]; [|now apply cast_no].
  apply itype_eqb_eq in Ewt. subst wt.
  pose proof (bpw_pos pf (i_type f) Hpf) as HB. pose proof (bpw_max pf (i_type f) Hpf) as HB'.
  destruct (1 <? bytes_per_word pf (i_type f)) eqn:Eb.
  - destruct (all_bits_used (bytes_per_word pf (i_type f)) (i_bits f)) eqn:Ea; cbn [negb]; [|now apply cast_no].
    apply all_bits_ok in Ea; [|assumption..].
    destruct (byte_order_ok pf (i_type f) Hpf) as (r & Er & Hr); [unfold bytes_per_word in Eb; lia|]. rewrite Er. cbn [obind].
    destruct r as [e|]; [|now apply cast_no]. destruct (proj1 (Hr e) eq_refl) as [_ He].
    destruct ((1 <? i_words f) && negb (endian_eqb (i_order f) e)) eqn:Eo; [now apply cast_no|].
    assert (Ho : i_words f = 1 \/ i_order f = e).
    { destruct (endian_eqb (i_order f) e) eqn:E; [right; now apply endian_eqb_eq|left]. cbn [negb] in Eo. lia. }
    assert (i_words f * bytes_per_word pf (i_type f) * 8 < 2 ^ 31) by nia.
    rewrite imul_ok by nia. cbn [obind]. apply cast_yes; [exact Hok|]. split; [reflexivity|]. split.
    { unfold int_format_ok. cbn [i_type i_bits i_words]. rewrite byte_bits by assumption. nia. }
    intros _. split; [reflexivity|]. split; [reflexivity|]. intros k Hk. cbn [depth format_conf i_conf i_bits i_words] in *. split; [nia|].
    intros m w x y Hm Hx Hy. cbn [access]. unfold int_access. cbn [i_type i_bits i_words i_order i_conf]. rewrite Ea.
    rewrite (words_bytes pf m (i_type f) e (i_order f) (i_words f)) by assumption.
    f_equal. apply sequence_ext. intros j _. do 2 f_equal. lia.
  - apply cast_yes; [exact Hok|]. destruct (bpw_one pf (i_type f) Hpf ltac:(lia)) as [Hn Hbits].
    split; [reflexivity|]. split.
    { unfold int_format_ok. cbn [i_type i_bits i_words]. rewrite byte_bits by assumption. lia. }
    intros _. split; [reflexivity|]. split; [reflexivity|]. intros k Hk. split; [reflexivity|].
    intros m w x y Hm Hx Hy. cbn [access]. unfold int_access. cbn [i_type i_bits i_words i_order i_conf].
    f_equal. apply sequence_ext. intros j _. f_equal. apply word_same; [assumption|lia].
Qed.

(* a channel of a packed format with regular bit fields *)
Lemma packed_group pf m f w x y k n wpc :
  conf_ok (p_conf f) -> n = channels (p_conf f) -> packed_format_ok pf f -> p_words f = n * wpc ->
  let fields := firstn (Z.to_nat n) (p_fields f) in
  length fields = Z.to_nat n ->
  (forall s, (s < Z.to_nat n)%nat -> field_shift fields s = Z.of_nat (Z.to_nat n - 1 - s) * (wpc * p_bits f)) ->
  0 <= k < n ->
  let s := place (p_conf f) k in
  let width := fwidth (nth (Z.to_nat s) fields (Field 0 0)) in
  width <= wpc * p_bits f ->
  let q := match p_order f with Big => s | Little => n - 1 - s end in
  packed_access pf m f w x y k =
  low_bits width (assemble (p_order f) (2 ^ p_bits f)
    (sequence wpc (fun j => low_bits (p_bits f) (word pf m (p_type f) (((y * w + x) * n + q) * wpc + j))))).
Proof.
  intros Hc Hn (O1 & O2 & O3 & O4 & O5 & O6 & O7) Hw fields Hlen Hshift Hk s width Hwidth q.
  assert (Hs : 0 <= s < n) by (subst n s; apply place_range; assumption).
  assert (Hwpc : 1 <= wpc) by nia.
  unfold packed_access. rewrite <- Hn. fold fields. fold s. fold width. rewrite Hshift by lia. rewrite Hw.
  set (W := fun j => low_bits (p_bits f) (word pf m (p_type f) ((y * w + x) * (n * wpc) + j))).
  rewrite <- (assemble_nested (p_order f) (2 ^ p_bits f) n wpc W) by lia. rewrite <- Z.pow_mul_r by lia.
  set (part := p_bits f * wpc). set (L := sequence n (fun i => assemble (p_order f) (2 ^ p_bits f) (sequence wpc (fun j => W (i * wpc + j))))).
  assert (HL : Z.of_nat (length L) = n) by (apply sequence_length; lia).
  replace (Z.of_nat (Z.to_nat n - 1 - Z.to_nat s) * (wpc * p_bits f)) with (signif (p_order f) (Z.of_nat (length L)) q * part + 0).
  2:{ rewrite HL. unfold signif, q, part. destruct (p_order f); nia. }
  assert (Hq : 0 <= q < n) by (unfold q; destruct (p_order f); lia).
  assert (Hw1 : 1 <= width) by (apply O6; rewrite <- Hn; fold fields; apply nth_In; lia).
  rewrite bits_of_digit; [|unfold part; nia| |lia|lia|lia|unfold part; nia].
  - rewrite bits_at_0. unfold L. rewrite sequence_nth by assumption. f_equal. f_equal. apply sequence_ext. intros j _. unfold W. do 2 f_equal. ring.
  - apply sequence_digits. intros i Hi. unfold part. rewrite Z.pow_mul_r by lia.
    pose proof (assemble_bound (p_order f) (2 ^ p_bits f) (sequence wpc (fun j => W (i * wpc + j)))) as Hb.
    rewrite sequence_length in Hb by lia. apply Hb; [apply Z.pow_pos_nonneg; lia|].
    apply sequence_digits. intros j _. apply low_bits_bound. lia.
Qed.

Lemma fields_first pf f f0 rest n : format_t (FPacked f) -> n = channels (p_conf f) -> packed_format_ok pf f ->
  firstn (Z.to_nat n) (p_fields f) = f0 :: rest ->
  length rest = (Z.to_nat n - 1)%nat /\ (forall g, In g (f0 :: rest) -> int_t (fwidth g) /\ int_t (fgap g) /\ 1 <= fwidth g /\ 0 <= fgap g) /\
  fields_width (f0 :: rest) <= p_words f * p_bits f.
Proof.
  intros (B & W & Hc & Hl & Hg) Hn (O1 & O2 & O3 & O4 & O5 & O6 & O7) E. rewrite <- Hn, E in O6, O7.
  pose proof (firstn_length (Z.to_nat n) (p_fields f)) as H. rewrite E, Hl in H. cbn [length] in H.
  split; [lia|]. split; [|exact O7]. intros g Hin. specialize (O6 g Hin). rewrite <- E in Hin. apply in_firstn in Hin. specialize (Hg g Hin). tauto.
Qed.

(* the last step of the cast of a packed format *)
Lemma packed_to_int_end pf f wt n wpc wpc' bits order f0 rest :
  platform_ok pf -> format_t (FPacked f) -> packed_format_ok pf f ->
  n = channels (p_conf f) -> p_words f = n * wpc -> 1 <= wpc ->
  firstn (Z.to_nat n) (p_fields f) = f0 :: rest -> length rest = (Z.to_nat n - 1)%nat ->
  (forall s, (s < S (length rest))%nat -> field_shift (f0 :: rest) s = Z.of_nat (length rest - s) * (wpc * p_bits f)) ->
  (forall g, In g rest -> fwidth g <= wpc * p_bits f) ->
  1 <= bits -> (wpc' * bits <= wpc * p_bits f -> bits <= nbits pf wt) -> 1 <= wpc' -> wpc' * bits < 2 ^ 31 ->
  (good_cast pf (FPacked f) wt -> n = 1 \/ order <> p_order f) ->
  (forall m i, memory_ok m ->
     wpc' * bits <= wpc * p_bits f ->
     assemble order (2 ^ bits) (sequence wpc' (fun j => low_bits bits (word pf m wt (i * wpc' + j)))) =
     low_bits (wpc' * bits) (assemble (p_order f) (2 ^ p_bits f)
       (sequence wpc (fun j => low_bits (p_bits f) (word pf m (p_type f) (i * wpc + j)))))) ->
  cast_ok (packed_format_ok pf f) (int_good pf (FPacked f) wt)
    (let? depth := imul wpc' bits in
     if negb (forallb (fun g => fwidth g =? depth) (f0 :: rest)) then Some No else
     Some (Yes (IntFormat wt bits wpc' order (if endian_eqb order Big then conf_reverse (p_conf f) else p_conf f)))).
Proof.
  intros Hpf Ht Hok Hn Hw Hwpc E Hlen Hshift Hrest Hbits Hbits' Hwpc' Hmax Hgood Hval.
  rewrite imul_ok by nia. cbn [obind].
  destruct (forallb (fun g => fwidth g =? wpc' * bits) (f0 :: rest)) eqn:Ef; cbn [negb]; [|now apply cast_no].
  rewrite forallb_forall in Ef. assert (Hwidth : forall g, In g (f0 :: rest) -> fwidth g = wpc' * bits) by (intros g Hg; specialize (Ef g Hg); lia).
  pose proof Ht as (_ & _ & Hc & _ & _).
  pose proof (channels_pos _ Hc) as Hcp. rewrite <- Hn in Hcp.
  destruct (fields_first pf f f0 rest n Ht Hn Hok E) as (_ & Hin & Hsum).
  assert (Hdepth : wpc' * bits <= wpc * p_bits f).
  { destruct rest as [|g rest].
    - cbn [length] in Hlen. assert (n = 1) by lia. subst n.
      change (fields_width [f0]) with (fwidth f0 + fgap f0 + 0) in Hsum. specialize (Hwidth f0 (or_introl eq_refl)).
      destruct (Hin f0 (or_introl eq_refl)) as (_ & _ & H1 & H2). lia.
    - rewrite <- (Hwidth g) by (right; now left). apply Hrest. now left. }
  apply cast_yes; [exact Hok|]. split; [reflexivity|]. split.
  { unfold int_format_ok. cbn [i_type i_bits i_words]. specialize (Hbits' Hdepth). lia. }
  intros Hg. specialize (Hgood Hg).
  set (conf := if endian_eqb order Big then conf_reverse (p_conf f) else p_conf f).
  assert (Hch : channels conf = n) by (unfold conf; rewrite Hn; destruct (endian_eqb order Big); reflexivity).
  split; [unfold conf; cbn [format_conf i_conf]; destruct (endian_eqb order Big); reflexivity|].
  split; [unfold conf; cbn [format_conf i_conf]; destruct (endian_eqb order Big); reflexivity|].
  cbn [format_conf i_conf]. intros k Hk. rewrite <- Hn in Hk.
  assert (Hs : 0 <= place (p_conf f) k < n) by (rewrite Hn; apply place_range; [assumption|lia]).
  assert (Hnth : In (nth (Z.to_nat (place (p_conf f) k)) (f0 :: rest) (Field 0 0)) (f0 :: rest)) by (apply nth_In; cbn [length]; lia).
  split.
  { cbn [depth i_bits i_words]. rewrite <- Hn, E. rewrite (Hwidth _ Hnth). lia. }
  intros m w x y Hm Hx Hy. cbn [access].
  rewrite (packed_group pf m f w x y k n wpc Hc Hn Hok Hw); rewrite ?E.
  - rewrite (Hwidth _ Hnth). unfold int_access. cbn [i_type i_bits i_words i_order i_conf]. rewrite Hch.
    rewrite <- Hval by assumption. f_equal. apply sequence_ext. intros j _. do 2 f_equal. f_equal. f_equal. f_equal.
    unfold conf. destruct Hgood as [H1|H1].
    + rewrite H1 in *. destruct (endian_eqb order Big), (p_order f); rewrite ?reverse_place, <- ?Hn; lia.
    + destruct order; cbn [endian_eqb]; rewrite ?reverse_place, <- ?Hn; destruct (p_order f); try lia; congruence.
  - cbn [length]. lia.
  - intros s Hs'. rewrite Hshift by lia. do 2 f_equal. lia.
  - exact Hk.
  - rewrite (Hwidth _ Hnth). exact Hdepth.
Qed.

Lemma packed_to_int_ok pf f wt : platform_ok pf -> format_t (FPacked f) ->
  cast_ok (packed_format_ok pf f) (int_good pf (FPacked f) wt) (packed_to_int pf f wt).
Proof.
  intros Hpf Ht. destruct (packed_valid_ok pf f Ht) as (v & Ev & Hv). unfold packed_to_int. rewrite Ev. cbn [obind].
  destruct v; cbn [negb].
  2:{ apply cast_throws. intros H. apply Hv in H. discriminate. }
  assert (Hok : packed_format_ok pf f) by (now apply Hv). pose proof Hok as (O1 & O2 & O3 & O4 & O5 & O6 & O7).
  pose proof Ht as (B & W & Hc & Hl & Hg).
  rewrite num_channels_ok by assumption. cbn [obind]. pose proof (channels_pos _ Hc) as Hcp.
  set (n := channels (p_conf f)) in *. assert (Hn : n = channels (p_conf f)) by reflexivity. clearbody n.
  replace (0 <? n) with true by lia. cbn [assert obind]. unfold idiv, irem. replace (n =? 0) with false by lia. cbn [obind].
  destruct (Z.rem (p_words f) n =? 0) eqn:Er; cbn [negb]; [|now apply cast_no].
  assert (Hw : p_words f = n * Z.quot (p_words f) n) by (pose proof (Z.quot_rem' (p_words f) n); lia).
  set (wpc := Z.quot (p_words f) n) in *. clearbody wpc. assert (Hwpc : 1 <= wpc) by nia.
  rewrite imul_ok by nia. cbn [obind].
  destruct (firstn (Z.to_nat n) (p_fields f)) as [|f0 rest] eqn:E.
  { pose proof (firstn_length (Z.to_nat n) (p_fields f)) as H. rewrite E, Hl in H. cbn [length] in H. lia. }
  destruct (fields_first pf f f0 rest n Ht Hn Hok E) as (Hlen & Hin & Hsum).
  destruct (check_shifts_ok (wpc * p_bits f) rest) with (f0 := f0) as (ok & Eok & Hshift & Hrest).
  { intros g H. destruct (Hin g (or_intror H)) as (H1 & [_ H2] & H3 & H4). split; [exact H1|lia]. }
  { destruct (Hin f0 (or_introl eq_refl)) as (H1 & [_ H2] & H3 & H4). lia. }
  { intros g H. destruct (Hin g H) as (H1 & H2 & H3 & H4). lia. }
  { lia. }
  rewrite Eok. cbn [obind]. destruct ok; cbn [negb]; [|now apply cast_no]. specialize (Hshift eq_refl). specialize (Hrest eq_refl).
  assert (Hgc : forall P : Prop, (n = 1 -> P) -> (p_words f = n /\ (if itype_eqb wt (p_type f) then p_order f = Little
     else (2 <= nbytes pf (p_type f))%nat /\ forall e, native pf (p_type f) e -> e <> p_order f) -> P) -> good_cast pf (FPacked f) wt -> P).
  { intros P H1 H2 H. cbn [good_cast] in H. rewrite <- Hn in H. destruct H as [H|H]; auto. }
  pose proof (bpw_pos pf (p_type f) Hpf) as HB. pose proof (bpw_max pf (p_type f) Hpf) as HB'.
  destruct (itype_eqb wt (p_type f)) eqn:Et; cbn [negb].
  - apply itype_eqb_eq in Et. subst wt. destruct (wpc =? 1) eqn:Ew; cbn [obind].
    + assert (wpc = 1) by lia. subst wpc. destruct (Hin f0 (or_introl eq_refl)) as ([F1 F2] & F3 & F4 & F5).
      apply (packed_to_int_end pf f (p_type f) n 1 1); try assumption; try lia.
      * apply Hgc; [intros ->; now left|]. intros [_ ->]. right. discriminate.
      * intros m i Hm Hd. rewrite !sequence_single, !assemble_single. rewrite Z.mul_1_l.
        rewrite <- !(bits_at_0 (fwidth f0)). rewrite bits_at_low by lia. reflexivity.
    + apply (packed_to_int_end pf f (p_type f) n wpc wpc); try assumption; try nia.
      * apply Hgc; [intros ->; now left|]. intros [H _]. nia.
      * intros m i Hm Hd. symmetry. apply low_bits_small. rewrite (Z.mul_comm wpc), Z.pow_mul_r by lia.
        pose proof (assemble_bound (p_order f) (2 ^ p_bits f) (sequence wpc (fun j => low_bits (p_bits f) (word pf m (p_type f) (i * wpc + j))))) as Hb.
        rewrite sequence_length in Hb by lia. apply Hb; [apply Z.pow_pos_nonneg; lia|].
        apply sequence_digits. intros j _. apply low_bits_bound. lia.
  - destruct (itype_eqb wt Byte) eqn:Ewt; cbn [negb obind]; [|now apply cast_no].
    apply itype_eqb_eq in Ewt. subst wt.
    destruct (1 <? bytes_per_word pf (p_type f)) eqn:Eb.
    + destruct (all_bits_used (bytes_per_word pf (p_type f)) (p_bits f)) eqn:Ea; cbn [negb obind]; [|now apply cast_no].
      apply all_bits_ok in Ea; [|assumption..].
      destruct (byte_order_ok pf (p_type f) Hpf) as (r & Erd & Hr); [unfold bytes_per_word in Eb; lia|]. rewrite Erd. cbn [obind].
      destruct r as [e|]; [|now apply cast_no]. destruct (proj1 (Hr e) eq_refl) as [_ He].
      destruct ((1 <? wpc) && negb (endian_eqb (p_order f) e)) eqn:Eo; [now apply cast_no|].
      assert (Ho : wpc = 1 \/ p_order f = e).
      { destruct (endian_eqb (p_order f) e) eqn:E'; [right; now apply endian_eqb_eq|left]. cbn [negb] in Eo. lia. }
      rewrite imul_ok by nia. cbn [obind].
      apply (packed_to_int_end pf f Byte n wpc); try assumption; try nia.
      * rewrite byte_bits by assumption. lia.
      * apply Hgc; [intros ->; now left|]. intros [_ [_ H]]. right. now apply H.
      * intros m i Hm Hd. rewrite Ea. rewrite (words_bytes pf m (p_type f) e (p_order f) wpc) by assumption.
        rewrite low_bits_small.
        -- f_equal. apply sequence_ext. intros j _. do 2 f_equal. lia.
        -- rewrite (Z.mul_comm _ 8), Z.pow_mul_r by nia.
           pose proof (assemble_bound e (2 ^ 8) (sequence (wpc * bytes_per_word pf (p_type f))
             (fun j => low_bits 8 (word pf m Byte (i * wpc * bytes_per_word pf (p_type f) + j))))) as Hb.
           rewrite sequence_length in Hb by nia. apply Hb; [lia|]. apply sequence_digits. intros j _. apply low_bits_bound. lia.
    + destruct (bpw_one pf (p_type f) Hpf ltac:(lia)) as [Hb1 Hb8].
      cbn [obind]. apply (packed_to_int_end pf f Byte n wpc wpc); try assumption; try nia.
      * rewrite byte_bits by assumption. lia.
      * apply Hgc; [intros ->; now left|]. intros [_ [H _]]. lia.
      * intros m i Hm Hd. rewrite low_bits_small.
        -- f_equal. apply sequence_ext. intros j _. f_equal. apply word_same; [assumption|lia].
        -- rewrite (Z.mul_comm wpc), Z.pow_mul_r by lia.
           pose proof (assemble_bound (p_order f) (2 ^ p_bits f) (sequence wpc (fun j => low_bits (p_bits f) (word pf m (p_type f) (i * wpc + j))))) as Hb.
           rewrite sequence_length in Hb by lia. apply Hb; [apply Z.pow_pos_nonneg; lia|].
           apply sequence_digits. intros j _. apply low_bits_bound. lia.
Qed.
