(* Theorems about subword and indexed pixel formats. *)
From Coq Require Import ZArith Lia Bool List ZifyBool.
From Verif Require Import CInt IntModel IntSpec IntProofs IntProofs2 IntProofs3.
From Verif Require Import PixelBoxModel PixelBoxSpec BitMediumModel BitMediumSpec BitMediumProofs BitMediumProofs2.
From Verif Require Import IntBitCopyProofs IntBitCopyProofs2.
From Verif Require Import ArrLib PixelBufModel PixelBufSpec PixelBufProofs PixelBufProofs2 RunSpec RunProofs.
From Verif Require Import PackedPixelModel PackedPixelSpec PackedPixelProofs PackedPixelProofs2.
From Verif Require Import SubwordPixelModel SubwordPixelSpec SubwordPixelProofs.
Import ListNotations.
Open Scope Z_scope.

(* ---- reading subword formats (C67) ---- *)

(* Reading produces the channels of the pixels in the slots of the block. *)
Theorem subword_read_exact : forall f n s buf comps p t, s_format_ok f n -> image_ok s ->
  num_compounds (sf_aligned f) (sf_N f) s < 2 ^ 63 -> s_holds f s buf comps -> within p t s ->
  subword_read f buf s p t =
    Some (map (fun j => map (fun i => s_tray_pixel f n (s_channels f n (s_pixel f s comps (px p + i) (py p + j))))
                 (zseq 0 (Z.to_nat (width t)))) (zseq 0 (Z.to_nat (height t)))).
Proof.
  intros f n s buf comps p t Hf Hs Hm Hb Hin. pose proof (sf_nums f n Hf) as (H1 & H2 & H3 & H4).
  unfold subword_read, s_pixel.
  apply (run_read_ok (list Z) Z (sf_N f) 1 (sf_aligned f) (read_word f) (s_get_pixel f)
    (fun buf o c => word buf o = Some (packed_form (sf_W f) (sf_N f * (sf_C f * sf_B f)) c))
    (fun c => 0 <= c < 2 ^ (sf_N f * (sf_C f * sf_B f))) (s_pixel_in f)
    (fun q => s_tray_pixel f n (s_channels f n q))); try assumption; try lia.
  - intros b o c Hc Hw. now apply (s_read_word_ok f n).
  - intros c q Hc Hq. now apply s_get_pixel_ok.
Qed.

(* ---- writing subword formats (C68) ---- *)

Lemma sub_local (f : subword_format) b b' o o' (c : Z) : (forall i, 0 <= i < 1 -> word b' (o' + i) = word b (o + i)) ->
  word b o = Some c -> word b' o' = Some c.
Proof. intros H <-. specialize (H 0 ltac:(lia)). now rewrite !Z.add_0_r in H. Qed.

Lemma tray_put_ext N al s p t y0 (g : Z -> Z -> Z) v v' c c' :
  (forall i j, 0 <= i < width t -> y0 <= j < height t -> v i j = v' i j) ->
  tray_put Z N al g s p t y0 v c c' -> tray_put Z N al g s p t y0 v' c c'.
Proof.
  intros Hv (A & B & C). split; [|split; assumption]. intros i j Hi Hj. rewrite A by assumption. now apply Hv.
Qed.

(* Writing sets the slots of the block to the representations of the given channels and
   changes no other pixel, also where these share words with the block. *)
Theorem subword_write_exact : forall f n s buf comps p t cs, s_format_ok f n -> image_ok s ->
  num_compounds (sf_aligned f) (sf_N f) s < 2 ^ 63 -> s_holds f s buf comps -> within p t s ->
  (forall x y, 0 <= x < width t -> 0 <= y < height t -> s_channels_ok f n (cs x y)) ->
  exists buf' comps', subword_write f buf s p t (fun x y => s_tray_pixel f n (cs x y)) = Some buf' /\
    s_holds f s buf' comps' /\ s_put f s p t (fun x y => s_represent f n (cs x y)) comps comps'.
Proof.
  intros f n s buf comps p t cs Hf Hs Hm Hb Hin Hcs. pose proof (sf_nums f n Hf) as (H1 & H2 & H3 & H4).
  destruct (run_write_ok (list Z) Z (sf_N f) 1 (sf_aligned f) (read_word f) (write_word f) (s_set_pixel f)
    (fun buf o c => word buf o = Some (packed_form (sf_W f) (sf_N f * (sf_C f * sf_B f)) c))
    (fun c => 0 <= c < 2 ^ (sf_N f * (sf_C f * sf_B f))) (s_pixel_in f) (s_enc f n) (s_okp f n))
    with (s := s) (p := p) (t := t) (buf := buf) (comps := comps) (tray := fun x y => s_tray_pixel f n (cs x y))
    as (b & c & E & A1 & A2); try assumption; try lia.
  - intros b b' o o' q. now apply sub_local.
  - intros b o c Hc Hw. now apply (s_read_word_ok f n).
  - intros c b o Hc Ho Hl. now apply (s_write_word_ok f n).
  - intros v c q Hv Hc Hq. now apply s_set_pixel_ok.
  - intros i j Hi Hj. exists (cs i j). split; [now apply Hcs|reflexivity].
  - exists b, c. split; [exact E|]. split; [exact A1|]. revert A2. apply tray_put_ext.
    intros i j Hi Hj. apply s_enc_tray; [assumption|]. now apply Hcs.
Qed.

Theorem subword_fill_exact : forall f n s buf comps area cs, s_format_ok f n -> image_ok s ->
  num_compounds (sf_aligned f) (sf_N f) s < 2 ^ 63 -> s_holds f s buf comps ->
  within (bpos area) (bsize area) s -> s_channels_ok f n cs ->
  exists buf' comps', subword_fill f buf s area (s_tray_pixel f n cs) = Some buf' /\
    s_holds f s buf' comps' /\ s_put f s (bpos area) (bsize area) (fun _ _ => s_represent f n cs) comps comps'.
Proof.
  intros f n s buf comps area cs Hf Hs Hm Hb Hin Hcs. pose proof (sf_nums f n Hf) as (H1 & H2 & H3 & H4).
  unfold subword_fill. rewrite (encode_pixel_ok f n) by assumption. cbn [obind].
  apply (run_fill_ok Z Z (sf_N f) 1 (sf_aligned f) (read_word f) (write_word f) (do_set_pixel f)
    (fun buf o c => word buf o = Some (packed_form (sf_W f) (sf_N f * (sf_C f * sf_B f)) c))
    (fun c => 0 <= c < 2 ^ (sf_N f * (sf_C f * sf_B f))) (s_pixel_in f) (fun v => v)
    (fun v => 0 <= v < 2 ^ (sf_C f * sf_B f))); try assumption; try lia.
  - intros b b' o o' q. now apply sub_local.
  - intros b o c Hc Hw. now apply (s_read_word_ok f n).
  - intros c b o Hc Ho Hl. now apply (s_write_word_ok f n).
  - intros v c q Hv Hc Hq. now apply (do_set_pixel_ok f n).
  - now apply s_represent_range.
Qed.

(* The channels of what represents some channels differ from these by the rounding to the
   number of bits in the word, and not at all if this is the number of bits in the tray. *)
Theorem subword_round_trip : forall f n cs, s_format_ok f n -> s_channels_ok f n cs ->
  s_channels f n (s_represent f n cs) = map (fun c => unit_scale (sf_B f) n (unit_scale n (sf_B f) c)) cs /\
  (sf_B f = n -> s_channels f n (s_represent f n cs) = cs).
Proof.
  intros f n cs Hf Hcs. pose proof (sf_fields f n Hf) as (F1 & _). pose proof (sf_T_ok f n Hf) as (_ & T2 & T3).
  pose proof (sf_nums f n Hf) as (H1 & _).
  assert (E : s_channels f n (s_represent f n cs) = map (fun c => unit_scale (sf_B f) n (unit_scale n (sf_B f) c)) cs).
  { unfold s_channels, s_represent. rewrite field_values_compound by (try assumption; now apply s_vals_ok).
    rewrite map_map. set (g := fun c => unit_scale (sf_B f) n (unit_scale n (sf_B f) c)).
    rewrite <- (canonical_field (sf_alpha f && sf_alpha_first f) (sf_reverse f) (map g cs)). f_equal.
    unfold to_field_order. rewrite map_length. destruct (_ && _), (sf_reverse f);
      rewrite ?map_rev, ?map_app, ?skipn_map, ?firstn_map; reflexivity. }
  split; [exact E|]. intros HB. rewrite E, HB. rewrite <- (map_id cs) at 2. apply map_ext_in.
  intros c Hc. destruct Hcs as [_ Ha]. rewrite Forall_forall in Ha. specialize (Ha c Hc).
  rewrite (unit_scale_self n c), unit_scale_self by lia. reflexivity.
Qed.

(* the channels of a pixel represent the pixel *)
Lemma map_id_in {A} (g : A -> A) l : (forall x, In x l -> g x = x) -> map g l = l.
Proof. intros H. rewrite <- (map_id l) at 2. now apply map_ext_in. Qed.

Lemma compound_field_values fs q : Forall (fun g => 1 <= fwidth g /\ fgap g = 0) fs -> 0 <= q < 2 ^ total fs ->
  compound fs (field_values fs q) = q.
Proof.
  intros Hfs. revert q. assert (G : forall q, 0 <= q -> compound fs (field_values fs q) = q mod 2 ^ total fs).
  { induction Hfs as [|g fs [G1 G2] Hfs IH]; intros q Hq; cbn [compound field_values total]; [now rewrite Z.mod_1_r|].
    rewrite IH by assumption. rewrite G2.
    assert (0 <= total fs) by (clear - Hfs; induction Hfs as [|? ? [A B] _ I]; cbn [total]; lia).
    rewrite !Z.add_0_l. replace (fwidth g + 0 + total fs) with (total fs + fwidth g) by lia.
    rewrite Z.pow_add_r by lia. rewrite Z.rem_mul_r by lia. lia. }
  intros q Hq. rewrite G by lia. apply Z.mod_small. assumption.
Qed.

Lemma s_represent_channels f n q : s_format_ok f n -> 0 <= q < 2 ^ (sf_C f * sf_B f) ->
  s_channels_ok f n (s_channels f n q) /\ s_represent f n (s_channels f n q) = q.
Proof.
  intros Hf Hq. pose proof (sf_fields f n Hf) as (F1 & F2 & F3). pose proof (sf_T_ok f n Hf) as (_ & T2 & T3).
  pose proof (sf_nums f n Hf) as (H1 & _).
  assert (Hv : Forall (fun v => 0 <= v < 2 ^ sf_B f) (field_values (s_fields f) q)).
  { unfold s_fields. clear - H1. induction (Z.to_nat (sf_C f)) as [|k IH]; cbn [repeat field_values]; constructor; [|exact IH].
    cbn [fwidth]. apply Z.mod_pos_bound. apply Z.pow_pos_nonneg; lia. }
  split.
  - split; [apply s_channels_length|]. apply Forall_forall. intros c Hc. unfold s_channels in Hc.
    assert (Hc' : In c (map (unit_scale (sf_B f) n) (field_values (s_fields f) q))).
    { unfold to_canonical_order in Hc. destruct (_ && _); [apply in_app_iff in Hc|]; destruct (sf_reverse f); try assumption;
      [| |now apply in_rev in Hc].
      - apply in_rev. rewrite <- (firstn_skipn 1 (rev _)). apply in_app_iff. tauto.
      - rewrite <- (firstn_skipn 1 (map _ _)). apply in_app_iff. tauto. }
    apply in_map_iff in Hc' as (v & <- & Hi). rewrite Forall_forall in Hv. apply unit_scale_range; try lia. now apply Hv.
  - unfold s_represent, s_channels. rewrite field_canonical, map_map, map_id_in.
    + apply compound_field_values; [|now rewrite F3]. unfold s_fields. apply Forall_forall.
      intros g Hg. apply repeat_spec in Hg. subst g. cbn. lia.
    + intros v Hi. rewrite Forall_forall in Hv. apply shrink_expand; [lia|now apply Hv].
Qed.

(* two words with the same pixels are the same *)
Lemma digits_ext M : 0 < M -> forall (k : nat) a b, 0 <= a < 2 ^ (Z.of_nat k * M) -> 0 <= b < 2 ^ (Z.of_nat k * M) ->
  (forall i, 0 <= i < Z.of_nat k -> digit M i a = digit M i b) -> a = b.
Proof.
  intros HM k a b Ha Hb H. apply Z.bits_inj'. intros i Hi.
  destruct (Z.lt_ge_cases i (Z.of_nat k * M)) as [Hl|Hl].
  - assert (D : 0 <= i / M < Z.of_nat k) by (split; [apply Z.div_pos; lia|apply Z.div_lt_upper_bound; lia]).
    specialize (H (i / M) D). pose proof (Z.div_mod i M ltac:(lia)). pose proof (Z.mod_pos_bound i M HM).
    assert (E : Z.testbit (digit M (i / M) a) (i mod M) = Z.testbit (digit M (i / M) b) (i mod M)) by now rewrite H.
    rewrite !digit_bit in E by lia. replace (i mod M <? M) with true in E by lia. cbn [andb] in E.
    replace (i mod M + M * (i / M)) with i in E by lia. exact E.
  - rewrite (testbit_small a (Z.of_nat k * M)), (testbit_small b (Z.of_nat k * M)) by nia. reflexivity.
Qed.

Lemma word_ext (a b : list Z) : length a = length b -> (forall k, 0 <= k < Z.of_nat (length a) -> word a k = word b k) -> a = b.
Proof.
  intros L H. apply nth_error_ext; [exact L|]. intros i Hi. specialize (H (Z.of_nat i) ltac:(lia)).
  rewrite !word_nth, Nat2Z.id in H by lia. exact H.
Qed.

(* Writing back what has been read leaves the buffer as it is. *)
Theorem subword_write_back : forall f n s buf comps p t, s_format_ok f n -> image_ok s ->
  num_compounds (sf_aligned f) (sf_N f) s < 2 ^ 63 -> s_holds f s buf comps -> within p t s ->
  subword_write f buf s p t
    (fun x y => s_tray_pixel f n (s_channels f n (s_pixel f s comps (px p + x) (py p + y)))) = Some buf.
Proof.
  intros f n s buf comps p t Hf Hs Hm Hb Hin. pose proof (sf_nums f n Hf) as (H1 & H2 & H3 & H4).
  pose proof Hin as (P1 & P2 & P3 & P4 & P5 & P6). pose proof Hs as [S1 S2].
  set (C := num_compounds (sf_aligned f) (sf_N f) s) in *.
  assert (Hq : forall g, 0 <= pixel Z (sf_N f) (s_pixel_in f) comps g < 2 ^ (sf_C f * sf_B f)).
  { intros g. unfold pixel, s_pixel_in, pixel_in. apply digit_range. lia. }
  assert (Hr : forall x y, 0 <= x < width t -> 0 <= y < height t ->
    s_channels_ok f n (s_channels f n (s_pixel f s comps (px p + x) (py p + y)))).
  { intros x y Hx Hy. apply s_represent_channels; [assumption|]. apply Hq. }
  destruct (subword_write_exact f n s buf comps p t
    (fun x y => s_channels f n (s_pixel f s comps (px p + x) (py p + y))) Hf Hs Hm Hb Hin Hr)
    as (buf' & comps' & E & Hb' & (A1 & A2 & A3)).
  rewrite E. f_equal.
  assert (Hpix : forall g, 0 <= g < C * sf_N f ->
    pixel Z (sf_N f) (s_pixel_in f) comps' g = pixel Z (sf_N f) (s_pixel_in f) comps g).
  { intros g Hg.
    set (st := slot_stride (sf_aligned f) (sf_N f) (width s)) in *.
    pose proof (slot_stride_ge (sf_aligned f) (sf_N f) (width s) ltac:(lia) ltac:(lia)) as Hst. fold st in Hst.
    destruct (Z.eq_dec (width t) 0) as [Z0|Z0]; [apply A2; [assumption|]; intros; lia|].
    set (y := g / st). set (x := g mod st). pose proof (Z.div_mod g st ltac:(lia)) as Dg.
    pose proof (Z.mod_pos_bound g st ltac:(lia)) as Mg. fold y x in Dg, Mg.
    destruct ((px p <=? x) && (x <? px p + width t) && (py p <=? y) && (y <? py p + height t)) eqn:Hc.
    - assert (Eg : g = slot (sf_aligned f) (sf_N f) (width s) (px p + (x - px p)) (py p + (y - py p))).
      { unfold slot. fold st. nia. }
      rewrite Eg. rewrite A1 by lia.
      unfold s_pixel. rewrite (proj2 (s_represent_channels f n _ Hf (Hq _))). reflexivity.
    - apply A2; [assumption|]. intros i j Hi Hj Eg. unfold slot in Eg. fold st in Eg.
      assert (y = py p + j /\ x = px p + i) as [Ey Ex].
      { assert (y = py p + j) by (unfold y; symmetry; apply Z.div_unique with (px p + i); lia). split; [assumption|nia]. }
      lia. }
  destruct Hb as [L Hh], Hb' as [L' Hh'].
  assert (Hcomps : forall k, 0 <= k < C -> comps' k = comps k).
  { intros k Hk. destruct (Hh k Hk) as [R1 _], (Hh' k Hk) as [R2 _].
    apply (digits_ext (sf_C f * sf_B f)) with (k := Z.to_nat (sf_N f)); rewrite ?Z2Nat.id by lia; try assumption; try lia.
    intros i Hi. specialize (Hpix (k * sf_N f + (if sf_little f then i else sf_N f - 1 - i))).
    assert (Hp : 0 <= (if sf_little f then i else sf_N f - 1 - i) < sf_N f) by (destruct (sf_little f); lia).
    unfold pixel in Hpix. destruct (divmod (sf_N f) k _ Hp) as [E1 E2]. rewrite E1, E2 in Hpix.
    unfold s_pixel_in, pixel_in in Hpix. specialize (Hpix ltac:(nia)).
    destruct (sf_little f); [exact Hpix|]. replace (sf_N f - 1 - (sf_N f - 1 - i)) with i in Hpix by lia. exact Hpix. }
  apply word_ext; [lia|]. intros k Hk. destruct (Hh k ltac:(lia)) as [_ R1], (Hh' k ltac:(lia)) as [_ R2].
  rewrite Z.mul_1_r in R1, R2. rewrite R1, R2. now rewrite Hcomps by lia.
Qed.

(* ---- size of buffers ---- *)

Lemma num_compounds_aligned N s : 0 < N -> num_compounds true N s = (width s + N - 1) / N * height s.
Proof.
  intros HN. unfold num_compounds, slot_stride. symmetry. apply Z.div_unique with (N - 1); [lia|]. ring.
Qed.

Section Sizes.
  Variables (U : ity) (N : Z).
  Hypothesis HU : ity_ok U.
  Hypothesis HUs : isigned U = false.
  Hypothesis HN : 0 < N < 2 ^ 31.
  Notation lim := (2 ^ iwidth U).

  Lemma size_lim : 2 <= lim.
  Proof using HU. clear HUs. pose proof (ity_ok_width _ HU). change 2 with (2 ^ 1) at 1. apply Z.pow_le_mono_r; lia. Qed.

  Lemma mul_size a b : 0 <= a < lim -> 0 <= b < 2 ^ 31 ->
    try_int_mul U t_int a b = if a * b <? lim then Some (true, a * b) else Some (false, a).
  Proof using HU HUs.
    intros Ha Hb. assert (HUr : forall z, 0 <= z -> in_rangeb U z = (z <? lim)).
    { intros z Hz. unfold in_rangeb, imin, imax. rewrite HUs. lia. }
    rewrite try_int_mul_spec; [|assumption|cbn; lia| |unfold in_range, imin, imax; cbn; lia].
    - unfold add_res. rewrite HUr by nia. reflexivity.
    - apply in_rangeb_spec. rewrite HUr; lia.
  Qed.

  Lemma round_size a : 0 <= a < lim -> int_div_round_up U t_int a N = Some ((a + N - 1) / N).
  Proof using HU HUs HN.
    intros Ha. rewrite int_div_round_up_spec; try assumption; try (cbn; lia).
    - now rewrite round_up_alt by lia.
    - apply in_rangeb_spec. unfold in_rangeb, imin, imax. rewrite HUs. lia.
    - unfold in_range, imin, imax; cbn; lia.
  Qed.

  Lemma round_lim a : 0 <= a < lim -> 0 <= (a + N - 1) / N <= a.
  Proof using HN. clear HUs.
    intros Ha. split; [apply Z.div_pos; lia|]. destruct (Z.eq_dec a 0) as [->|].
    - rewrite Z.div_small; lia.
    - apply Z.div_le_upper_bound; nia.
  Qed.
End Sizes.

(* The number of words is as it should be, or there is an exception because the width, or
   in the absence of alignment the number of pixels, or the number of words does not fit. *)
Theorem subword_buffer_size_exact : forall f n U s, s_format_ok f n -> image_ok s -> ity_ok U -> isigned U = false ->
  let C := num_compounds (sf_aligned f) (sf_N f) s in
  s_get_buffer_size f U s =
    Some (if (width s <? 2 ^ iwidth U) && ((if sf_aligned f then C else width s * height s) <? 2 ^ iwidth U)
          then Some C else None).
Proof.
  intros f n U s Hf Hs HU HUs C. pose proof (sf_nums f n Hf) as (H1 & H2 & H3 & H4). pose proof Hs as [Hw Hh].
  pose proof (size_lim U HU) as H0. unfold s_get_buffer_size, s_get_words_per_row, C.
  rewrite (mul_size U HU HUs 1 (width s)) by lia. rewrite Z.mul_1_l. destruct (sf_aligned f).
  - destruct (Z.ltb_spec (width s) (2 ^ iwidth U)) as [Hl|Hl]; cbn [obind andb]; [|reflexivity].
    rewrite (round_size U (sf_N f)) by (try assumption; lia). cbn [obind].
    pose proof (round_lim U (sf_N f) ltac:(lia) (width s) ltac:(lia)) as Hr.
    rewrite (mul_size U HU HUs _ (height s)) by lia. rewrite num_compounds_aligned by lia.
    destruct (Z.ltb_spec ((width s + sf_N f - 1) / sf_N f * height s) (2 ^ iwidth U)); cbn [obind]; reflexivity.
  - destruct (Z.ltb_spec (width s) (2 ^ iwidth U)) as [Hl|Hl]; cbn [obind andb]; [|reflexivity].
    rewrite (mul_size U HU HUs _ (height s)) by lia.
    destruct (Z.ltb_spec (width s * height s) (2 ^ iwidth U)) as [Hm|Hm]; cbn [obind]; [|reflexivity].
    rewrite (round_size U (sf_N f)) by (try assumption; nia). cbn [obind]. unfold num_compounds, slot_stride.
    now rewrite (Z.mul_comm (height s)).
Qed.

(* ---- indexed formats (C69, C70) ---- *)

(* Reading produces the indexes in the slots of the block if there are at most 8 bits in an
   index. *)
Theorem indexed_read_exact_partial : forall f s buf comps p t, x_format_ok f -> image_ok s ->
  num_compounds (xf_aligned f) (xf_N f) s * xf_D f < 2 ^ 63 -> x_holds f s buf comps -> within p t s ->
  xf_M f <= 8 ->
  indexed_read f buf s p t =
    Some (map (fun j => map (fun i => packed_form (xf_T8 f) 8 (x_pixel f s comps (px p + i) (py p + j)))
                 (zseq 0 (Z.to_nat (width t)))) (zseq 0 (Z.to_nat (height t)))).
Proof.
  intros f s buf comps p t Hf Hs Hm Hb Hin HM. pose proof (xf_nums f Hf) as (H1 & H2 & H3 & H4 & H5 & H6).
  pose proof (xf_V f Hf) as (V1 & V2 & V3 & V4).
  unfold indexed_read, x_pixel.
  apply (run_read_ok Z Z (xf_N f) (xf_D f) (xf_aligned f) (x_read_compound f) (x_get_pixel f)
    (stored (xf_W f) (xf_B f) (xf_D f) (xf_little f))
    (fun c => 0 <= c < 2 ^ (xf_B f * xf_D f)) (x_pixel_in f)
    (fun q => packed_form (xf_T8 f) 8 q)); try assumption; try lia.
  - intros b o c Hc Hw. apply read_compound_spec; try assumption. apply (xo_W _ Hf).
  - intros c q Hc Hq. now apply x_get_pixel_ok.
Qed.

(* Writing sets the slots of the block to the given indexes and changes no other pixel if
   the indexes have no more bits than the slots. *)
Theorem indexed_write_exact_partial : forall f s buf comps p t ix, x_format_ok f -> image_ok s ->
  num_compounds (xf_aligned f) (xf_N f) s * xf_D f < 2 ^ 63 -> x_holds f s buf comps -> within p t s ->
  (forall x y, 0 <= x < width t -> 0 <= y < height t -> 0 <= ix x y < 2 ^ xf_M f /\ ix x y < 2 ^ 8) ->
  exists buf' comps', indexed_write f buf s p t (fun x y => packed_form (xf_T8 f) 8 (ix x y)) = Some buf' /\
    x_holds f s buf' comps' /\ x_put f s p t ix comps comps'.
Proof.
  intros f s buf comps p t ix Hf Hs Hm Hb Hin Hix. pose proof (xf_nums f Hf) as (H1 & H2 & H3 & H4 & H5 & H6).
  pose proof (xf_V f Hf) as (V1 & V2 & V3 & V4). pose proof (xo_W _ Hf) as HW.
  destruct (run_write_ok Z Z (xf_N f) (xf_D f) (xf_aligned f) (x_read_compound f) (x_write_compound f) (x_set_pixel f)
    (stored (xf_W f) (xf_B f) (xf_D f) (xf_little f))
    (fun c => 0 <= c < 2 ^ (xf_B f * xf_D f)) (x_pixel_in f) (fun v => v mod 2 ^ 8)
    (fun v => exists i, v = packed_form (xf_T8 f) 8 i /\ 0 <= i < 2 ^ xf_M f /\ i < 2 ^ 8))
    with (s := s) (p := p) (t := t) (buf := buf) (comps := comps) (tray := fun x y => packed_form (xf_T8 f) 8 (ix x y))
    as (b & c & E & A1 & A2); try assumption; try lia.
  - intros b b' o o' q H Hst i Hi. rewrite H by assumption. now apply Hst.
  - intros b o c Hc Hw. now apply read_compound_spec.
  - intros c b o Hc Ho Hl. now apply write_compound_spec.
  - intros v c q (i & -> & Hi & Hi8) Hc Hq. rewrite packed_mod by lia. now apply x_set_pixel_ok.
  - intros i j Hi Hj. exists (ix i j). split; [reflexivity|]. now apply Hix.
  - exists b, c. split; [exact E|]. split; [exact A1|]. revert A2. apply tray_put_ext.
    intros i j Hi Hj. specialize (Hix i j Hi Hj). apply packed_mod; lia.
Qed.

Theorem indexed_fill_exact_partial : forall f s buf comps area i, x_format_ok f -> image_ok s ->
  num_compounds (xf_aligned f) (xf_N f) s * xf_D f < 2 ^ 63 -> x_holds f s buf comps ->
  within (bpos area) (bsize area) s -> 0 <= i < 2 ^ xf_M f -> i < 2 ^ 8 ->
  exists buf' comps', indexed_fill f buf s area (packed_form (xf_T8 f) 8 i) = Some buf' /\
    x_holds f s buf' comps' /\ x_put f s (bpos area) (bsize area) (fun _ _ => i) comps comps'.
Proof.
  intros f s buf comps area i Hf Hs Hm Hb Hin Hi Hi8. pose proof (xf_nums f Hf) as (H1 & H2 & H3 & H4 & H5 & H6).
  pose proof (xf_V f Hf) as (V1 & V2 & V3 & V4). pose proof (xo_W _ Hf) as HW.
  apply (run_fill_ok Z Z (xf_N f) (xf_D f) (xf_aligned f) (x_read_compound f) (x_write_compound f) (x_set_pixel f)
    (stored (xf_W f) (xf_B f) (xf_D f) (xf_little f))
    (fun c => 0 <= c < 2 ^ (xf_B f * xf_D f)) (x_pixel_in f) (fun _ => i)
    (fun v => v = packed_form (xf_T8 f) 8 i)); try assumption; try lia.
  - intros b b' o o' q H Hst k Hk. rewrite H by assumption. now apply Hst.
  - intros b o c Hc Hw. now apply read_compound_spec.
  - intros c b o Hc Ho Hl. now apply write_compound_spec.
  - intros v c q -> Hc Hq. now apply x_set_pixel_ok.
Qed.

Theorem indexed_buffer_size_exact : forall f U s, x_format_ok f -> image_ok s -> ity_ok U -> isigned U = false ->
  let C := num_compounds (xf_aligned f) (xf_N f) s in
  let row := num_compounds true (xf_N f) (Size (width s) 1) in
  let lim := 2 ^ iwidth U in
  x_get_buffer_size f U s =
    Some (if (width s <? lim) && ((if xf_aligned f then row * xf_D f else width s * height s) <? lim) && (C * xf_D f <? lim)
          then Some (C * xf_D f) else None).
Proof.
  intros f U s Hf Hs HU HUs C row lim. pose proof (xf_nums f Hf) as (H1 & H2 & H3 & H4 & H5 & H6). pose proof Hs as [Hw Hh].
  assert (HD : 1 <= xf_D f < 2 ^ 31) by nia.
  pose proof (size_lim U HU) as H0. unfold x_get_buffer_size, x_get_words_per_row, C, row, lim.
  rewrite (mul_size U HU HUs 1 (width s)) by lia. rewrite Z.mul_1_l. rewrite (num_compounds_aligned _ (Size _ _)) by lia.
  cbn [width height]. rewrite Z.mul_1_r. destruct (xf_aligned f).
  - destruct (Z.ltb_spec (width s) (2 ^ iwidth U)) as [Hl|Hl]; cbn [obind andb]; [|reflexivity].
    rewrite (round_size U (xf_N f)) by (try assumption; lia). cbn [obind].
    pose proof (round_lim U (xf_N f) ltac:(lia) (width s) ltac:(lia)) as Hr.
    rewrite num_compounds_aligned by lia. set (m := (width s + xf_N f - 1) / xf_N f) in *.
    rewrite (mul_size U HU HUs _ (xf_D f)) by lia.
    destruct (Z.ltb_spec (m * xf_D f) (2 ^ iwidth U)) as [Hm|Hm]; cbn [obind andb]; [|reflexivity].
    rewrite (mul_size U HU HUs _ (height s)) by nia. replace (m * height s * xf_D f) with (m * xf_D f * height s) by ring.
    destruct (Z.ltb_spec (m * xf_D f * height s) (2 ^ iwidth U)); cbn [obind]; reflexivity.
  - destruct (Z.ltb_spec (width s) (2 ^ iwidth U)) as [Hl|Hl]; cbn [obind andb]; [|reflexivity].
    rewrite (mul_size U HU HUs _ (height s)) by lia.
    destruct (Z.ltb_spec (width s * height s) (2 ^ iwidth U)) as [Hm|Hm]; cbn [obind andb]; [|reflexivity].
    assert (Hwh : 0 <= width s * height s) by nia.
    pose proof (round_lim U (xf_N f) ltac:(lia) (width s * height s) ltac:(lia)) as Hr.
    rewrite (round_size U (xf_N f)) by (try assumption; lia). cbn [obind]. unfold num_compounds, slot_stride.
    rewrite (Z.mul_comm (height s)). set (m := (width s * height s + xf_N f - 1) / xf_N f) in *.
    rewrite (mul_size U HU HUs _ (xf_D f)) by lia.
    destruct (Z.ltb_spec (m * xf_D f) (2 ^ iwidth U)); cbn [obind]; reflexivity.
Qed.

(* ---- examples ---- *)

(* ARGB with 2 bits per channel, two pixels in a word of 16 bits *)
Definition fmt_argb2 : subword_format :=
  SubwordFormat 4 (ITy 16 true) 2 2 false true true false true (ITy 8 false) (ITy 16 false).
Lemma fmt_argb2_ok : s_format_ok fmt_argb2 8.
Proof. constructor; cbn; try lia; reflexivity. Qed.

(* 3x2 pixels in four words *)
Definition sub_comps (k : Z) : Z := nth (Z.to_nat k) [0x1b2d; 0x1234; 0xe4f1; 0xff00] 0.
Definition sub_buf : list Z := [0x1b2d; 0x1234; 0xe4f1 - 2 ^ 16; 0xff00 - 2 ^ 16].
Example sub_holds : s_holds fmt_argb2 (Size 3 2) sub_buf sub_comps.
Proof.
  split; [reflexivity|]. change (num_compounds (sf_aligned fmt_argb2) (sf_N fmt_argb2) (Size 3 2)) with 4. intros k Hk.
  assert (H : k = 0 \/ k = 1 \/ k = 2 \/ k = 3) by lia.
  destruct H as [->|[->|[->| ->]]]; split; try (vm_compute; split; congruence); reflexivity.
Qed.
Example sub_read : subword_read fmt_argb2 sub_buf (Size 3 2) (Pos 1 0) (Size 2 2) =
  Some [[[170; 255; 85; 0]; [85; 0; 170; 0]]; [[255; 0; 85; 255]; [255; 255; 255; 255]]].
Proof. vm_compute. reflexivity. Qed.
Example sub_write : subword_write fmt_argb2 sub_buf (Size 3 2) (Pos 1 1) (Size 1 1) (fun _ _ => [0; 255; 170; 85]) =
  Some [0x1b2d; 0x1234; 0xe44e - 2 ^ 16; 0xff00 - 2 ^ 16].
Proof. vm_compute. reflexivity. Qed.
Example sub_fill : subword_fill fmt_argb2 sub_buf (Size 3 2) (Box (Pos 1 0) (Size 2 1)) [0; 255; 170; 85] =
  Some [0x1b4e; 0x4e34; 0xe4f1 - 2 ^ 16; 0xff00 - 2 ^ 16].
Proof. vm_compute. reflexivity. Qed.
Example sub_size : s_get_buffer_size fmt_argb2 (ITy 64 false) (Size 3 2) = Some (Some 4).
Proof. reflexivity. Qed.

(* five indexes of 3 bits in a compound of two bytes, rows not aligned *)
Definition fmt_index3 : indexed_format :=
  IndexedFormat (ITy 16 false) 3 5 true (ITy 8 false) 8 2 false false (ITy 8 false).
Lemma fmt_index3_ok : x_format_ok fmt_index3.
Proof. constructor; cbn; try lia; reflexivity. Qed.

(* 4x2 pixels in two compounds, the second of which has two slots to spare *)
Definition ind_comps (k : Z) : Z := if k =? 0 then 0xc688 else 0x7d4e.
Definition ind_buf : list Z := [0xc6; 0x88; 0x7d; 0x4e].
Example ind_holds : x_holds fmt_index3 (Size 4 2) ind_buf ind_comps.
Proof.
  split; [reflexivity|]. change (num_compounds (xf_aligned fmt_index3) (xf_N fmt_index3) (Size 4 2)) with 2. intros k Hk.
  assert (H : k = 0 \/ k = 1) by lia.
  destruct H as [->| ->]; (split; [vm_compute; split; congruence|]); intros i Hi; cbn [xf_D fmt_index3] in Hi;
    assert (H : i = 0 \/ i = 1) by lia; destruct H as [->| ->]; reflexivity.
Qed.
Example ind_read : indexed_read fmt_index3 ind_buf (Size 4 2) (Pos 0 0) (Size 4 2) = Some [[0; 1; 2; 3]; [4; 6; 1; 5]].
Proof. vm_compute. reflexivity. Qed.
Example ind_write : indexed_write fmt_index3 ind_buf (Size 4 2) (Pos 2 0) (Size 1 2) (fun _ y => 5 + y) =
  Some [0xc7; 0x48; 0x7d; 0x76].
Proof. vm_compute. reflexivity. Qed.
Example ind_fill : indexed_fill fmt_index3 ind_buf (Size 4 2) (Box (Pos 2 0) (Size 2 1)) 7 = Some [0xcf; 0xc8; 0x7d; 0x4e].
Proof. vm_compute. reflexivity. Qed.
Example ind_size : x_get_buffer_size fmt_index3 (ITy 64 false) (Size 4 2) = Some (Some 4).
Proof. reflexivity. Qed.

(* ---- indexes that do not fit ---- *)

(* Without the bound on the index, writing also changes pixels outside of the block: with
   two indexes of 4 bits in a byte, writing index 31 to the second pixel changes the first
   one from 2 to 3. *)
Definition fmt_index4 : indexed_format :=
  IndexedFormat (ITy 8 false) 4 2 false (ITy 8 false) 8 1 false true (ITy 8 false).
Theorem indexed_write_refuted : exists f s buf comps p t i buf' comps',
  x_format_ok f /\ image_ok s /\ x_holds f s buf comps /\ within p t s /\ 0 <= i < 2 ^ 8 /\
  indexed_write f buf s p t (fun _ _ => packed_form (xf_T8 f) 8 i) = Some buf' /\ x_holds f s buf' comps' /\
  exists x y, 0 <= x < width s /\ 0 <= y < height s /\ ~ covers p t x y /\
    x_pixel f s comps' x y <> x_pixel f s comps x y.
Proof.
  exists fmt_index4, (Size 2 1), [0x21], (fun _ => 0x21), (Pos 1 0), (Size 1 1), 31, [0x3f], (fun _ => 0x3f).
  assert (Hh : forall v, 0 <= v < 256 -> x_holds fmt_index4 (Size 2 1) [v] (fun _ => v)).
  { intros v Hv. split; [reflexivity|]. change (num_compounds _ _ _) with 1. intros k Hk. split; [exact Hv|].
    intros i Hi. cbn [xf_D fmt_index4] in Hi. replace (k * xf_D fmt_index4 + i) with 0 by (cbn; lia).
    replace i with 0 by lia. cbn. unfold word, digit. cbn. rewrite Z.div_1_r, Z.mod_small by lia. reflexivity. }
  split; [constructor; cbn; try lia; reflexivity|]. split; [split; cbn; lia|]. split; [apply Hh; lia|].
  split; [unfold within; cbn; lia|]. split; [lia|]. split; [vm_compute; reflexivity|]. split; [apply Hh; lia|].
  exists 0, 0. split; [cbn; lia|]. split; [cbn; lia|]. split; [intros H; unfold covers, in_box in H; cbn in H; lia|].
  vm_compute. discriminate.
Qed.

(* The static assertions allow for more than 8 bits in an index.  Reading then loses the
   upper bits. *)
Definition fmt_index16 : indexed_format :=
  IndexedFormat (ITy 16 false) 16 1 false (ITy 16 false) 16 1 false true (ITy 8 false).
Theorem indexed_read_refuted : exists f s buf comps,
  x_format_ok f /\ image_ok s /\ x_holds f s buf comps /\ within (Pos 0 0) s s /\
  exists x y tray row v, 0 <= x < width s /\ 0 <= y < height s /\
    indexed_read f buf s (Pos 0 0) s = Some tray /\ nth_error tray (Z.to_nat y) = Some row /\
    nth_error row (Z.to_nat x) = Some v /\ v mod 2 ^ 8 <> x_pixel f s comps x y.
Proof.
  exists fmt_index16, (Size 1 1), [0x102], (fun _ => 0x102).
  split; [constructor; cbn; try lia; reflexivity|]. split; [split; cbn; lia|]. split.
  - split; [reflexivity|]. change (num_compounds _ _ _) with 1. intros k Hk. split; [cbn; lia|].
    intros i Hi. cbn [xf_D fmt_index16] in Hi. replace (k * xf_D fmt_index16 + i) with 0 by (cbn; lia).
    replace i with 0 by lia. reflexivity.
  - split; [unfold within; cbn; lia|]. exists 0, 0. do 3 eexists. split; [cbn; lia|]. split; [cbn; lia|].
    split; [vm_compute; reflexivity|]. split; [reflexivity|]. split; [reflexivity|]. vm_compute. discriminate.
Qed.

Print Assumptions subword_read_exact.
Print Assumptions subword_write_exact.
Print Assumptions subword_fill_exact.
Print Assumptions subword_round_trip.
Print Assumptions subword_write_back.
Print Assumptions subword_buffer_size_exact.
Print Assumptions indexed_read_exact_partial.
Print Assumptions indexed_write_exact_partial.
Print Assumptions indexed_fill_exact_partial.
Print Assumptions indexed_buffer_size_exact.
Print Assumptions indexed_write_refuted.
Print Assumptions indexed_read_refuted.
