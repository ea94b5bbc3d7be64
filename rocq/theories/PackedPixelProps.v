(* Theorems about bit fields and packed pixel formats. *)
From Coq Require Import ZArith Lia Bool List ZifyBool.
From Verif Require Import CInt IntModel IntSpec IntProofs IntProofs3.
From Verif Require Import PixelBoxModel PixelBoxSpec BitMediumModel BitMediumSpec BitMediumProofs BitMediumProofs2.
From Verif Require Import IntBitCopyProofs IntBitCopyProofs2.
From Verif Require Import ArrLib PixelBufModel PixelBufSpec PixelBufProofs PixelBufProofs2.
From Verif Require Import PackedPixelModel PackedPixelSpec PackedPixelProofs PackedPixelProofs2.
Import ListNotations.
Open Scope Z_scope.

(* ---- bit fields (C60) ---- *)

(* valid_bit_fields() accepts a list of fields exactly if all widths are positive, no gap
   is negative, and the fields fit in the available bits. *)
Theorem valid_bit_fields_exact : forall fs avail,
  Forall (fun g => in_range t_int (fwidth g) /\ in_range t_int (fgap g)) fs -> in_range t_int avail ->
  valid_bit_fields fs avail = true <-> Forall field_ok fs /\ total fs <= avail.
Proof.
  intros fs avail Hi Ha. split.
  - intros H. apply valid_bit_fields_spec in H; [|assumption]. tauto.
  - intros [Hok Ht]. unfold valid_bit_fields.
    assert (avail < 2 ^ 31) by (unfold in_range, imax in Ha; cbn in Ha; lia).
    rewrite (valid_loop_total fs Hi Hok 0) by lia. lia.
Qed.

(* a field is where it should be *)
Lemma shift_at_app a g b : shift_at (a ++ g :: b) (length a) = fgap g + total b.
Proof.
  unfold shift_at. rewrite nth_error_app2, Nat.sub_diag by lia. cbn [nth_error]. do 2 f_equal.
  rewrite skipn_app, skipn_all2 by lia. now replace (S (length a) - length a)%nat with 1%nat by lia.
Qed.

(* get_bit_field_width(), get_bit_field_shift() and get_bit_field_mask() agree with the
   layout: the mask has ones in the positions of the field, zeros elsewhere. *)
Theorem bit_field_layout : forall T a g b, ity_ok T -> Forall field_ok (a ++ g :: b) ->
  total (a ++ g :: b) <= iwidth T -> iwidth T < 2 ^ 31 ->
  let j := Z.of_nat (length a) in
  get_bit_field_width (a ++ g :: b) j = Some (fwidth g) /\
  get_bit_field_shift (a ++ g :: b) j = Some (fgap g + total b) /\
  exists m, get_bit_field_mask T (a ++ g :: b) j = Some m /\ in_range T m /\
    forall k, 0 <= k < iwidth T -> Z.testbit m k = true <-> fgap g + total b <= k < fgap g + total b + fwidth g.
Proof.
  intros T a g b HT Hok Ht HT31 j.
  assert (E : nth_error (a ++ g :: b) (length a) = Some g) by (now rewrite nth_error_app2, Nat.sub_diag by lia).
  pose proof (nth_field_ok _ _ _ Hok E) as ([G1 G2] & G3 & G4). rewrite shift_at_app in *.
  assert (Ew : get_bit_field_width (a ++ g :: b) j = Some (fwidth g)) by (apply get_width_ok; assumption).
  assert (Es : get_bit_field_shift (a ++ g :: b) j = Some (fgap g + total b)).
  { rewrite <- shift_at_app with (a := a). apply get_shift_ok with g; try assumption. lia. }
  split; [assumption|]. split; [assumption|].
  unfold get_bit_field_mask. rewrite Ew, Es. cbn [obind].
  set (s := fgap g + total b) in *. replace ((fwidth g <=? iwidth T) && (s <=? iwidth T - fwidth g)) with true by lia.
  pose proof (ity_ok_width _ HT).
  pose proof (unpacked_type_ok T (iwidth T) HT ltac:(lia)) as [U1 U2].
  pose proof (unpacked_width T (iwidth T) HT) as U3.
  set (U := unpacked_type T (iwidth T)) in *. assert (nvb U <= iwidth U) by apply nvb_width.
  rewrite int_mask_spec by (try assumption; lia). cbn [obind].
  assert (0 < 2 ^ s) by (apply Z.pow_pos_nonneg; lia). assert (0 < 2 ^ fwidth g) by (apply Z.pow_pos_nonneg; lia).
  assert (Hm : 0 <= (2 ^ fwidth g - 1) * 2 ^ s < 2 ^ iwidth T).
  { split; [nia|]. apply Z.lt_le_trans with (2 ^ fwidth g * 2 ^ s); [nia|]. rewrite <- Z.pow_add_r by lia.
    apply Z.pow_le_mono_r; lia. }
  assert (2 ^ iwidth T <= 2 ^ nvb U) by (apply Z.pow_le_mono_r; lia).
  rewrite cshl_small by (try assumption; lia). cbn [obind snd].
  rewrite pack_int_spec; [|assumption|assumption|lia|apply small_range; [assumption|lia]|assumption].
  eexists. split; [reflexivity|]. split; [apply packed_range; (assumption || lia)|].
  intros k Hk.
  assert (Eb : Z.testbit (packed_form T (iwidth T) ((2 ^ fwidth g - 1) * 2 ^ s)) k =
               Z.testbit ((2 ^ fwidth g - 1) * 2 ^ s) k).
  { rewrite <- (Z.mod_pow2_bits_low _ (iwidth T) k) by lia. rewrite packed_mod by lia. reflexivity. }
  rewrite Eb. replace (2 ^ fwidth g - 1) with (Z.ones (fwidth g)) by (rewrite Z.ones_equiv; lia).
  destruct (Z.ltb_spec k s).
  - rewrite Z.mul_pow2_bits_low by lia. split; [discriminate|lia].
  - rewrite Z.mul_pow2_bits by lia. destruct (Z.ltb_spec (k - s) (fwidth g)).
    + rewrite Z.ones_spec_low by lia. split; [lia|reflexivity].
    + rewrite Z.ones_spec_high by lia. split; [discriminate|lia].
Qed.

(* different fields share no bits *)
Theorem bit_fields_disjoint : forall a g b h c k, Forall field_ok (a ++ g :: b ++ h :: c) ->
  fgap g + total (b ++ h :: c) <= k < fgap g + total (b ++ h :: c) + fwidth g ->
  ~ (fgap h + total c <= k < fgap h + total c + fwidth h).
Proof.
  intros a g b h c k H Hk. apply Forall_app in H as [_ H]. apply Forall_cons_iff in H as [[G1 G2] H].
  apply Forall_app in H as [Hb H]. apply Forall_cons_iff in H as [[H1 H2] Hc].
  rewrite total_app in Hk. cbn [total] in Hk. pose proof (total_nonneg _ Hb). lia.
Qed.

(* widest_bit_field() is the maximum of the widths, and zero without fields *)
Theorem widest_bit_field_exact : forall fs, Forall field_ok fs ->
  (forall g, In g fs -> fwidth g <= widest_bit_field fs) /\
  (fs = [] -> widest_bit_field fs = 0) /\
  (fs <> [] -> exists g, In g fs /\ widest_bit_field fs = fwidth g).
Proof.
  intros fs Hok. unfold widest_bit_field. destruct (widest_loop_spec fs 0) as (A & B & C).
  split; [exact B|]. split; [intros ->; reflexivity|]. intros Hn. destruct C as [C|C]; [|exact C].
  destruct fs as [|g fs]; [congruence|]. specialize (B g (or_introl eq_refl)).
  apply Forall_cons_iff in Hok as [[G1 _] _]. lia.
Qed.

Definition fields_565 := [BitField 5 0; BitField 6 0; BitField 5 0].
Definition fields_x555 := [BitField 5 1; BitField 5 0; BitField 4 2].

Example bit_fields_ex :
  valid_bit_fields fields_565 16 = true /\ valid_bit_fields fields_565 15 = false /\
  valid_bit_fields [BitField 5 0; BitField 0 2] 16 = false /\
  get_bit_field_mask (ITy 16 false) fields_565 1 = Some 2016 /\
  get_bit_field_mask (ITy 16 true) fields_565 0 = Some (-2048) /\
  get_bit_field_mask (ITy 32 false) fields_x555 1 = Some (31 * 64) /\ widest_bit_field fields_565 = 6.
Proof. vm_compute. repeat split; reflexivity. Qed.

(* ---- pixels ---- *)

Lemma compound_unused fs vs : Forall field_ok fs -> vals_ok fs vs -> unused_zero fs (compound fs vs).
Proof.
  intros Hok Hv. induction Hv as [|g v fs vs Hv Hvs IH]; intros k Hk Hb; cbn [compound] in Hb.
  - rewrite Z.testbit_0_l in Hb. discriminate.
  - apply Forall_cons_iff in Hok as [[G1 G2] Hok]. pose proof (total_nonneg _ Hok).
    pose proof (compound_range _ _ Hok Hvs) as Hc.
    assert (2 ^ total fs <= 2 ^ (fgap g + total fs)) by (apply Z.pow_le_mono_r; lia).
    rewrite <- lor_shift_add in Hb by lia. rewrite Z.lor_spec in Hb. apply orb_true_iff in Hb as [Hb|Hb].
    + exists [], g, fs. split; [reflexivity|].
      destruct (Z.ltb_spec k (fgap g + total fs)); [rewrite Z.mul_pow2_bits_low in Hb by lia; discriminate|].
      rewrite Z.mul_pow2_bits in Hb by lia. destruct (Z.ltb_spec (k - (fgap g + total fs)) (fwidth g)); [lia|].
      rewrite (testbit_small v (fwidth g)) in Hb by lia. discriminate.
    + destruct (IH Hok k Hk Hb) as (a & h & b & -> & Hr). exists (g :: a), h, b. split; [reflexivity|assumption].
Qed.

Lemma field_vals_ok fs p : Forall field_ok fs -> vals_ok fs (field_values fs p).
Proof.
  induction 1 as [|g fs [G1 G2] _ IH]; cbn [field_values]; constructor; [|exact IH].
  apply Z.mod_pos_bound. apply Z.pow_pos_nonneg; lia.
Qed.

Lemma compound_values fs p : Forall field_ok fs -> 0 <= p -> unused_zero fs p -> compound fs (field_values fs p) = p.
Proof.
  intros Hok Hp Hu. apply Z.bits_inj'. intros k Hk.
  assert (Hin : in_field fs k -> Z.testbit (compound fs (field_values fs p)) k = Z.testbit p k).
  { intros (a & g & b & E & Hr). subst fs.
    assert (En : nth_error (a ++ g :: b) (length a) = Some g) by (now rewrite nth_error_app2, Nat.sub_diag by lia).
    pose proof (nth_field_ok _ _ _ Hok En) as ([G1 G2] & G3 & G4).
    erewrite (compound_bit _ _ (length a) g _ k Hok (field_vals_ok _ p Hok) En);
      [|apply nth_field_values; exact En|rewrite shift_at_app; lia].
    rewrite shift_at_app in *. rewrite Z.mod_pow2_bits_low by lia. rewrite Z.div_pow2_bits by lia. f_equal. lia. }
  destruct (Z.testbit p k) eqn:Eb.
  - rewrite Hin by (now apply Hu). reflexivity.
  - destruct (Z.testbit (compound fs (field_values fs p)) k) eqn:Ec; [|reflexivity].
    apply Hin. apply (compound_unused fs _ Hok (field_vals_ok fs p Hok)); assumption.
Qed.

(* C61: Reading an area of an image gives the channels of the pixels of the image. *)
Theorem packed_read_exact : forall f n s buf img p t, format_ok f n -> image_ok s ->
  width s * height s * pf_D f < 2 ^ 63 -> holds_image f s buf img -> within p t s ->
  packed_read f buf s p t =
    Some (map (fun j => map (fun i => tray_pixel f n (channels f n (img (px p + i) (py p + j))))
                 (zseq 0 (Z.to_nat (width t)))) (zseq 0 (Z.to_nat (height t)))).
Proof.
  intros f n s buf img p t Hf Hs Hm [Hl Hi] Hin. pose proof (fmt_BD f n Hf) as (_ & D1 & _).
  apply (read_ok (list Z) Z (pf_D f) (read_pixel f) (stored (pf_W f) (pf_B f) (pf_D f) (pf_little f))
    (fun q => tray_pixel f n (channels f n q)) (fun q => 0 <= q < 2 ^ (pf_B f * pf_D f))); try assumption.
  - lia.
  - intros b o q Hq Hst. now apply read_pixel_ok.
Qed.

(* the buffer after a tray has been written *)
Definition pixels_set (f : packed_format) (s : size) (p : pos) (t : size) (val : Z -> Z -> Z) (buf buf' : list Z) : Prop :=
  length buf' = length buf /\
  forall x y, 0 <= x < width s -> 0 <= y < height s ->
    (covers p t x y ->
       stored (pf_W f) (pf_B f) (pf_D f) (pf_little f) buf' ((y * width s + x) * pf_D f) (val (x - px p) (y - py p))) /\
    (~ covers p t x y -> forall i, 0 <= i < pf_D f ->
       word buf' ((y * width s + x) * pf_D f + i) = word buf ((y * width s + x) * pf_D f + i)).

(* C62: Writing sets the pixels of the area and no others.  Unused bits become zero. *)
Theorem packed_write_exact : forall f n s buf p t cs, format_ok f n -> image_ok s ->
  width s * height s * pf_D f < 2 ^ 63 -> Z.of_nat (length buf) = width s * height s * pf_D f -> within p t s ->
  (forall x y, 0 <= x < width t -> 0 <= y < height t -> channels_ok f n (cs x y)) ->
  exists buf', packed_write f buf s p t (fun x y => tray_pixel f n (cs x y)) = Some buf' /\
    pixels_set f s p t (fun x y => represent f n (cs x y)) buf buf' /\
    forall x y, 0 <= x < width t -> 0 <= y < height t ->
      0 <= represent f n (cs x y) < 2 ^ total (pf_fields f) /\
      unused_zero (pf_fields f) (represent f n (cs x y)).
Proof.
  intros f n s buf p t cs Hf Hs Hm Hl Hin Hc. pose proof (fmt_BD f n Hf) as (_ & D1 & _).
  destruct (write_ok (list Z) Z (pf_D f) (write_pixel f) (stored (pf_W f) (pf_B f) (pf_D f) (pf_little f))
    (enc f n) (okp f n) ltac:(lia) (stored_local f) (fmt_write f n Hf) buf s p t
    (fun x y => tray_pixel f n (cs x y))) as (buf' & E & L & R); try assumption.
  { intros x y Hx Hy. exists (cs x y). split; [now apply Hc|reflexivity]. }
  exists buf'. split; [exact E|]. split.
  - split; [exact L|]. intros x y Hx Hy. destruct (R x y Hx Hy) as [R1 R2]. split; [|exact R2].
    intros Hcv. specialize (R1 Hcv). rewrite (enc_tray f n Hf) in R1; [exact R1|].
    unfold covers, in_box in Hcv. cbn [bpos bsize] in Hcv. apply Hc; lia.
  - intros x y Hx Hy. pose proof (fmt_fields f n Hf) as (F1 & _).
    pose proof (to_fields_ok f n Hf _ (Hc x y Hx Hy)) as Hv. split.
    + now apply compound_range.
    + now apply compound_unused.
Qed.

Theorem packed_fill_exact : forall f n s init buf area cs, format_ok f n -> image_ok s ->
  width s * height s * pf_D f < 2 ^ 63 -> Z.of_nat (length buf) = width s * height s * pf_D f ->
  Z.of_nat (length init) = pf_D f -> within (bpos area) (bsize area) s -> channels_ok f n cs ->
  exists buf', packed_fill f init buf s area (tray_pixel f n cs) = Some buf' /\
    pixels_set f s (bpos area) (bsize area) (fun _ _ => represent f n cs) buf buf'.
Proof.
  intros f n s init buf area cs Hf Hs Hm Hl Hi Hin Hc. pose proof (fmt_BD f n Hf) as (_ & D1 & _).
  destruct (fill_ok (list Z) Z (pf_D f) (write_pixel f) (stored (pf_W f) (pf_B f) (pf_D f) (pf_little f))
    (enc f n) (okp f n) ltac:(lia) (stored_local f) (fmt_write f n Hf) init buf s area (tray_pixel f n cs))
    as (buf' & E & L & R); try assumption.
  { exists cs. split; [assumption|reflexivity]. }
  exists buf'. split; [exact E|]. split; [exact L|]. intros x y Hx Hy. destruct (R x y Hx Hy) as [R1 R2].
  split; [|exact R2]. rewrite <- (enc_tray f n Hf cs Hc). exact R1.
Qed.

(* What is read back after a component has been written: it has been cut down to the
   width of its field.  Components with as many bits as the transfer representation are
   read back as they were written. *)
Theorem packed_round_trip : forall f n cs i c g, format_ok f n -> channels_ok f n cs ->
  nth_error cs i = Some c ->
  nth_error (to_canonical_order (pf_alpha f && pf_alpha_first f) (pf_reverse f) (pf_fields f)) i = Some g ->
  let c' := unit_scale (fwidth g) n (unit_scale n (fwidth g) c) in
  nth_error (channels f n (represent f n cs)) i = Some c' /\
  (fwidth g = n -> c' = c) /\ unit_scale n (fwidth g) c' = unit_scale n (fwidth g) c.
Proof.
  intros f n cs i c g Hf Hcs Hc Hg c'. pose proof (fmt_fields f n Hf) as (F1 & F2 & F3).
  pose proof (fmt_T f n Hf) as (_ & T2). pose proof Hcs as [L C].
  set (al := pf_alpha f && pf_alpha_first f) in *. set (rv := pf_reverse f) in *.
  assert (Hi : (i < length (pf_fields f))%nat).
  { rewrite <- (to_canonical_length al rv). apply nth_error_Some. congruence. }
  assert (Hg' : In g (pf_fields f)).
  { replace i with (Z.to_nat (Z.of_nat i)) in Hg by lia. rewrite nth_canonical in Hg by lia. eapply nth_error_In. exact Hg. }
  pose proof (fmt_width f n Hf g Hg') as Hw. rewrite Forall_forall in F1. pose proof (F1 g Hg') as [G1 G2].
  rewrite <- Forall_forall in F1.
  assert (Hcr : 0 <= c < 2 ^ n) by (rewrite Forall_forall in C; apply C; eapply nth_error_In; exact Hc).
  assert (Hur : 0 <= unit_scale n (fwidth g) c < 2 ^ fwidth g) by (apply unit_scale_range; lia).
  split; [|split].
  - unfold channels, represent. fold al rv. rewrite field_values_compound by (try assumption; now apply to_fields_ok).
    unfold from_fields, to_fields.
    assert (L2 : length (pf_fields f) = length (to_field_order al rv cs)) by (rewrite to_field_length; lia).
    replace i with (Z.to_nat (Z.of_nat i)) by lia.
    replace i with (Z.to_nat (Z.of_nat i)) in Hg, Hc by lia. rewrite nth_canonical in Hg by lia.
    rewrite nth_canonical by (rewrite map2_length; [lia|rewrite map2_length; lia]).
    rewrite map2_length by (rewrite map2_length; lia).
    rewrite (nth_error_map2 _ _ _ _ g (unit_scale n (fwidth g) c)); [reflexivity|assumption|].
    rewrite (nth_error_map2 _ _ _ _ g c); [reflexivity|assumption|].
    rewrite <- Hc, <- L. apply nth_field. lia.
  - intros E. unfold c'. rewrite E in *. rewrite !unit_scale_self by (rewrite ?unit_scale_self; lia). reflexivity.
  - unfold c'. apply shrink_expand; lia.
Qed.

(* A pixel whose unused bits are zero is represented by its channels: to write what was
   read changes nothing. *)
Theorem packed_represent_channels : forall f n p, format_ok f n -> 0 <= p < 2 ^ (pf_B f * pf_D f) ->
  unused_zero (pf_fields f) p -> channels_ok f n (channels f n p) /\ represent f n (channels f n p) = p.
Proof.
  intros f n p Hf Hp Hu. pose proof (fmt_fields f n Hf) as (F1 & F2 & F3). pose proof (fmt_T f n Hf) as (_ & T2).
  set (al := pf_alpha f && pf_alpha_first f). set (rv := pf_reverse f).
  assert (Hfr : forall fs vs, (forall g, In g fs -> fwidth g <= n) -> Forall field_ok fs -> vals_ok fs vs ->
    Forall (fun c => 0 <= c < 2 ^ n) (from_fields n fs vs) /\ to_fields n fs (from_fields n fs vs) = vs).
  { intros fs vs Hw Hok Hv. induction Hv as [|g v fs vs Hv Hvs IH]; [split; [constructor|reflexivity]|].
    apply Forall_cons_iff in Hok as [[G1 G2] Hok]. destruct IH as [I1 I2]; [intros; apply Hw; now right|assumption|].
    unfold from_fields, to_fields in *. cbn [map2]. pose proof (Hw g (or_introl eq_refl)). split.
    - constructor; [apply unit_scale_range; lia|assumption].
    - rewrite I2, shrink_expand by lia. reflexivity. }
  destruct (Hfr (pf_fields f) (field_values (pf_fields f) p)) as [C1 C2];
    [intros; now apply (fmt_width f n Hf)|assumption|now apply field_vals_ok|].
  split.
  - split; [apply channels_length|]. apply Forall_forall. intros c Hc. rewrite Forall_forall in C1. apply C1.
    unfold channels in Hc. fold al rv in Hc. apply In_nth_error in Hc as [i Hi].
    assert ((i < length (from_fields n (pf_fields f) (field_values (pf_fields f) p)))%nat).
    { rewrite <- (to_canonical_length al rv). apply nth_error_Some. congruence. }
    replace i with (Z.to_nat (Z.of_nat i)) in Hi by lia. rewrite nth_canonical in Hi by lia.
    eapply nth_error_In. exact Hi.
  - unfold represent, channels. fold al rv. rewrite field_canonical, C2. apply compound_values; (assumption || lia).
Qed.

(* If unused bits are zero, then writing back the tray that was read changes nothing. *)
Theorem packed_write_back : forall f n s buf img p t, format_ok f n -> image_ok s ->
  width s * height s * pf_D f < 2 ^ 63 -> holds_image f s buf img -> within p t s ->
  (forall x y, 0 <= x < width s -> 0 <= y < height s -> unused_zero (pf_fields f) (img x y)) ->
  packed_write f buf s p t (fun x y => tray_pixel f n (channels f n (img (px p + x) (py p + y)))) = Some buf.
Proof.
  intros f n s buf img p t Hf Hs Hm [Hl Hi] Hin Hu. pose proof (fmt_BD f n Hf) as (_ & D1 & _).
  pose proof Hin as (P1 & P2 & P3 & P4 & P5 & P6).
  assert (Hr : forall x y, 0 <= x < width t -> 0 <= y < height t ->
    channels_ok f n (channels f n (img (px p + x) (py p + y))) /\
    represent f n (channels f n (img (px p + x) (py p + y))) = img (px p + x) (py p + y)).
  { intros x y Hx Hy. apply packed_represent_channels; [assumption|apply Hi; lia|apply Hu; lia]. }
  destruct (packed_write_exact f n s buf p t (fun x y => channels f n (img (px p + x) (py p + y))))
    as (buf' & E & (L & R) & _); try assumption.
  { intros x y Hx Hy. now apply Hr. }
  rewrite E. f_equal. apply nth_error_ext; [lia|]. intros k Hk. rewrite L in Hk.
  set (D := pf_D f) in *. set (q := Z.of_nat k / D).
  pose proof (Z.div_mod (Z.of_nat k) D ltac:(lia)) as Hdm. pose proof (Z.mod_pos_bound (Z.of_nat k) D ltac:(lia)) as Hmb.
  fold q in Hdm.
  assert (Hq : 0 <= q < width s * height s) by nia.
  assert (Hw : 0 < width s) by (destruct Hs; nia).
  pose proof (Z.div_mod q (width s) ltac:(lia)) as Hdm2. pose proof (Z.mod_pos_bound q (width s) Hw) as Hmb2.
  set (y := q / width s) in *. set (x := q mod width s) in *.
  assert (Hy : 0 <= y < height s) by (split; [apply Z.div_pos; lia|apply Z.div_lt_upper_bound; lia]).
  assert (Ek : Z.of_nat k = (y * width s + x) * D + Z.of_nat k mod D) by nia.
  assert (Ew : word buf' (Z.of_nat k) = word buf (Z.of_nat k)).
  { destruct (R x y ltac:(lia) Hy) as [R1 R2].
    destruct (Z.leb_spec (px p) x), (Z.ltb_spec x (px p + width t)), (Z.leb_spec (py p) y), (Z.ltb_spec y (py p + height t));
      try (rewrite Ek; apply R2; [unfold covers, in_box; cbn [bpos bsize]; lia|lia]).
    assert (Hcv : covers p t x y) by (unfold covers, in_box; cbn [bpos bsize]; lia).
    specialize (R1 Hcv). destruct (Hr (x - px p) (y - py p)) as [_ Hr2]; [lia|lia|].
    rewrite Hr2 in R1. replace (px p + (x - px p)) with x in R1 by lia. replace (py p + (y - py p)) with y in R1 by lia.
    destruct (Hi x y ltac:(lia) Hy) as [_ Hst]. rewrite Ek.
    rewrite (R1 (Z.of_nat k mod D)), (Hst (Z.of_nat k mod D)) by lia. reflexivity. }
  rewrite !word_nth in Ew by lia. rewrite !Nat2Z.id in Ew. exact Ew.
Qed.

(* C63: The size of the buffer is exactly the number of words of the image, and failure
   is due to that number, or the length of a row, not being representable. *)
Theorem packed_buffer_size_exact : forall f n U s, format_ok f n -> image_ok s ->
  ity_ok U -> isigned U = false ->
  get_buffer_size f U s =
    Some (if (pf_D f <? 2 ^ iwidth U) && (pf_D f * width s <? 2 ^ iwidth U) &&
             (width s * height s * pf_D f <? 2 ^ iwidth U)
          then Some (width s * height s * pf_D f) else None).
Proof.
  intros f n U s Hf [Hw Hh] HU HUs. pose proof (fmt_BD f n Hf) as (B1 & D1 & BD).
  assert (Hd : pf_D f < 2 ^ 31) by nia. set (D := pf_D f) in *.
  assert (Hint : forall z, 0 <= z < 2 ^ 31 -> in_range t_int z) by (intros; unfold in_range, imin, imax; cbn; lia).
  assert (HUr : forall z, 0 <= z -> in_rangeb U z = (z <? 2 ^ iwidth U)).
  { intros z Hz. unfold in_rangeb, imin, imax. rewrite HUs. lia. }
  assert (HUi : forall z, 0 <= z < 2 ^ iwidth U -> in_range U z).
  { intros z Hz. apply in_rangeb_spec. rewrite HUr; lia. }
  pose proof (ity_ok_width _ HU). assert (2 ^ 1 <= 2 ^ iwidth U) by (apply Z.pow_le_mono_r; lia).
  assert (try_int_add_t : ity_ok t_int) by (cbn; lia).
  unfold get_buffer_size, get_words_per_row. fold D.
  rewrite try_int_mul_spec; [|assumption|assumption|apply HUi; lia|apply Hint; lia].
  unfold add_res. rewrite Z.mul_1_l, HUr by lia. destruct (Z.ltb_spec D (2 ^ iwidth U)) as [H1|H1]; cbn [obind andb]; [|reflexivity].
  rewrite try_int_mul_spec; [|assumption|assumption|apply HUi; lia|apply Hint; lia].
  unfold add_res. rewrite HUr by nia. destruct (Z.ltb_spec (D * width s) (2 ^ iwidth U)) as [H2|H2]; cbn [obind andb]; [|reflexivity].
  rewrite try_int_mul_spec; [|assumption|assumption|apply HUi; nia|apply Hint; lia].
  unfold add_res. rewrite HUr by nia. replace (D * width s * height s) with (width s * height s * D) by lia.
  destruct (Z.ltb_spec (width s * height s * D) (2 ^ iwidth U)) as [H3|H3]; cbn [obind]; reflexivity.
Qed.

(* ---- an example: 5+6+5 bits in two words of 8 bits with alpha-less channels reversed,
   and 5+5+4 bits with gaps ---- *)

Definition fmt_565 : packed_format :=
  PackedFormat (ITy 16 false) fields_565 (ITy 8 true) 8 2 true false false true (ITy 8 true) (ITy 16 true).
Definition fmt_argb : packed_format :=
  PackedFormat (ITy 32 false) [BitField 2 0; BitField 10 1; BitField 10 0; BitField 9 0]
    (ITy 32 false) 32 1 false true true false (ITy 8 false) (ITy 16 true).

Lemma fmt_565_ok : format_ok fmt_565 8.
Proof.
  constructor; [cbn; lia|cbn; lia|cbn; lia|cbn; lia| |vm_compute; reflexivity|vm_compute; reflexivity].
  cbn. repeat apply Forall_cons; try apply Forall_nil; unfold in_range, imin, imax; cbn; lia.
Qed.
Lemma fmt_argb_ok : format_ok fmt_argb 16.
Proof.
  constructor; [cbn; lia|cbn; lia|cbn; lia|cbn; lia| |vm_compute; reflexivity|vm_compute; reflexivity].
  cbn. repeat apply Forall_cons; try apply Forall_nil; unfold in_range, imin, imax; cbn; lia.
Qed.

Example packed_ex :
  format_ok fmt_565 8 /\ format_ok fmt_argb 16 /\ within (Pos 1 0) (Size 1 2) (Size 2 2) /\
  channels_ok fmt_565 8 [255; 128; 8] /\
  packed_write fmt_565 [1; 2; 3; 4; 5; 6; 7; 8] (Size 2 2) (Pos 1 0) (Size 1 2)
    (fun x y => tray_pixel fmt_565 8 [255; 128; 8]) = Some [1; 2; 31; 12; 5; 6; 31; 12] /\
  packed_read fmt_565 [1; 2; 31; 12; 5; 6; 31; 12] (Size 2 2) (Pos 1 0) (Size 1 2) =
    Some [[[-1; -126; 8]]; [[-1; -126; 8]]] /\
  packed_fill fmt_argb [7] [0; 0; 0] (Size 3 1) (Box (Pos 1 0) (Size 2 1)) (tray_pixel fmt_argb 16 [65535; 0; 65535; 32768])
    = Some [0; 2 * 2 ^ 30 + 1023 * 2 ^ 20 + 511; 2 * 2 ^ 30 + 1023 * 2 ^ 20 + 511] /\
  get_buffer_size fmt_565 (ITy 64 false) (Size 3 5) = Some (Some 30) /\
  get_buffer_size fmt_565 (ITy 32 false) (Size 65536 65536) = Some None.
Proof.
  split; [exact fmt_565_ok|]. split; [exact fmt_argb_ok|]. split; [unfold within; cbn; lia|].
  split; [split; [reflexivity|repeat (apply Forall_cons; [lia|]); apply Forall_nil]|].
  vm_compute. repeat split; reflexivity.
Qed.

Print Assumptions valid_bit_fields_exact.
Print Assumptions bit_field_layout.
Print Assumptions bit_fields_disjoint.
Print Assumptions widest_bit_field_exact.
Print Assumptions packed_read_exact.
Print Assumptions packed_write_exact.
Print Assumptions packed_fill_exact.
Print Assumptions packed_round_trip.
Print Assumptions packed_represent_channels.
Print Assumptions packed_write_back.
Print Assumptions packed_buffer_size_exact.
