(* Theorems about integer pixel formats. *)
From Coq Require Import ZArith Lia Bool List ZifyBool.
From Verif Require Import CInt IntModel IntSpec IntProofs IntProofs3.
From Verif Require Import PixelBoxModel PixelBoxSpec BitMediumModel BitMediumSpec BitMediumProofs BitMediumProofs2.
From Verif Require Import IntBitCopyProofs IntBitCopyProofs2.
From Verif Require Import ArrLib PixelBufModel PixelBufSpec PixelBufProofs PixelBufProofs2.
From Verif Require Import PackedPixelModel PackedPixelSpec PackedPixelProofs PackedPixelProofs2.
From Verif Require Import IntegerPixelModel IntegerPixelSpec IntegerPixelProofs.
Import ListNotations.
Open Scope Z_scope.

(* ---- words of a component (C66) ---- *)

(* C66: A component is split into the words that hold it, for all formats. *)
Theorem integer_comp_split : forall f v buf ptr, i_format_any f -> 0 <= v < 2 ^ (if_B f * if_D f) ->
  0 <= ptr -> ptr + if_D f <= Z.of_nat (length buf) ->
  exists buf', split_comp f v buf ptr = Some buf' /\ length buf' = length buf /\
    stored (if_W f) (if_B f) (if_D f) (if_little f) buf' ptr v /\
    forall k, ~ (ptr <= k < ptr + if_D f) -> word buf' k = word buf k.
Proof.
  intros f v buf ptr Hf Hv H1 H2. now apply split_comp_ok.
Qed.

Lemma i_U_width f : i_format_any f -> iwidth (i_comp_type f) = iwidth (promo (if_S f)).
Proof.
  intros Hf. unfold i_comp_type, unpacked_type. destruct (_ <=? _); [reflexivity|]. reflexivity.
Qed.

(* What reading should do in all formats: give the component that the words hold. *)
Definition integer_comp_assemble_claim : Prop := forall f v buf ptr, i_format_any f ->
  0 <= v < 2 ^ (if_B f * if_D f) -> stored (if_W f) (if_B f) (if_D f) (if_little f) buf ptr v ->
  assemble_comp f buf ptr = Some v.

(* It does, unless a component is a single word that takes up all bits of the unpacked
   type. *)
Theorem integer_comp_assemble_partial : forall f v buf ptr, i_format_any f ->
  if_D f <> 1 \/ if_B f <> iwidth (promo (if_S f)) ->
  0 <= v < 2 ^ (if_B f * if_D f) -> stored (if_W f) (if_B f) (if_D f) (if_little f) buf ptr v ->
  assemble_comp f buf ptr = Some v.
Proof.
  intros f v buf ptr Hf Hd Hv Hs. apply assemble_comp_ok; try assumption.
  pose proof (i_BD f Hf) as (B1 & D1 & _ & _ & BS). pose proof (i_U f Hf) as (U1 & U2 & U3 & U4).
  rewrite <- i_U_width in Hd by assumption. nia.
Qed.

(* In that case, the behaviour is undefined, whatever the words are: the type is shifted
   by its own width. *)
Theorem integer_comp_assemble_undefined : forall f buf ptr, i_format_any f ->
  if_D f = 1 -> if_B f = iwidth (promo (if_S f)) -> assemble_comp f buf ptr = None.
Proof.
  intros f buf ptr Hf HD HB. unfold assemble_comp. rewrite HD. change (Z.to_nat 1) with 1%nat. cbn [assemble].
  unfold i_map_word_index. rewrite HD. cbn [Z.leb Z.compare Z.ltb andb obind].
  pose proof (i_U f Hf) as (U1 & U2 & U3 & U4).
  assert (E : cshl (i_comp_type f, 0) (if_B f) = None); [|now rewrite E].
  unfold cshl. cbn [fst snd]. rewrite promo_id by assumption. rewrite HB, <- i_U_width by assumption.
  rewrite Z.ltb_irrefl, andb_false_r. reflexivity.
Qed.

(* IntegerPixelFormat_Lum_32 where int32_type has 32 bits *)
Definition fmt_lum32 : integer_format :=
  IntegerFormat 1 (ITy 32 true) 32 (ITy 32 true) 1 false false false false (ITy 8 true) (ITy 16 true) false.

Lemma fmt_lum32_any : i_format_any fmt_lum32.
Proof. constructor; [cbn; lia|cbn; lia|cbn; lia|vm_compute; reflexivity]. Qed.

Theorem integer_comp_assemble_refuted : ~ integer_comp_assemble_claim.
Proof.
  intros H. specialize (H fmt_lum32 5 [5] 0 fmt_lum32_any). 
  rewrite integer_comp_assemble_undefined in H; [|apply fmt_lum32_any|reflexivity|reflexivity].
  assert (H' : None = Some 5); [|discriminate]. apply H; [cbn; lia|].
  intros i Hi. cbn in Hi. assert (i = 0) by lia. subst i. vm_compute. reflexivity.
Qed.

(* ---- reading (C64) ---- *)

(* C64: Reading gives the components of the pixels of the area, scaled to the transfer
   representation. *)
Theorem integer_read_exact : forall f n s buf img p t, i_format_ok f n -> image_ok s ->
  width s * height s * (if_N f * if_D f) < 2 ^ 63 -> i_holds_image f s buf img -> within p t s ->
  integer_read f buf s p t =
    Some (map (fun y => map (fun x =>
            i_tray_pixel f n (map (unit_scale (if_B f * if_D f) n) (img (px p + x) (py p + y))))
          (zseq 0 (Z.to_nat (width t)))) (zseq 0 (Z.to_nat (height t)))).
Proof.
  intros f n s buf img p t Hf Hs Hm [Hl Hi] Hin. pose proof (i_BD f (io_any _ _ Hf)) as (_ & D1 & _).
  pose proof (ia_N _ (io_any _ _ Hf)).
  apply (read_ok (list Z) (list Z) (if_N f * if_D f) (i_read_pixel f) (i_stored f)
    (fun cs => i_tray_pixel f n (map (unit_scale (if_B f * if_D f) n) cs)) (i_channels_ok f (if_B f * if_D f))); try assumption.
  - nia.
  - intros b o q Hq Hst. now apply i_read_pixel_ok.
Qed.

(* ---- writing (C65) ---- *)

(* the buffer after a tray has been written *)
Definition i_pixels_set (f : integer_format) (s : size) (p : pos) (t : size) (val : Z -> Z -> list Z) (buf buf' : list Z) : Prop :=
  length buf' = length buf /\
  forall x y, 0 <= x < width s -> 0 <= y < height s ->
    (covers p t x y -> i_stored f buf' ((y * width s + x) * (if_N f * if_D f)) (val (x - px p) (y - py p))) /\
    (~ covers p t x y -> forall i, 0 <= i < if_N f * if_D f ->
       word buf' ((y * width s + x) * (if_N f * if_D f) + i) = word buf ((y * width s + x) * (if_N f * if_D f) + i)).

(* C65: Writing sets the pixels of the area and no others. *)
Theorem integer_write_exact : forall f n s buf p t cs, i_format_ok f n -> image_ok s ->
  width s * height s * (if_N f * if_D f) < 2 ^ 63 ->
  Z.of_nat (length buf) = width s * height s * (if_N f * if_D f) -> within p t s ->
  (forall x y, 0 <= x < width t -> 0 <= y < height t -> i_channels_ok f n (cs x y)) ->
  exists buf', integer_write f buf s p t (fun x y => i_tray_pixel f n (cs x y)) = Some buf' /\
    i_pixels_set f s p t (fun x y => map (unit_scale n (if_B f * if_D f)) (cs x y)) buf buf'.
Proof.
  intros f n s buf p t cs Hf Hs Hm Hl Hin Hc. pose proof (i_BD f (io_any _ _ Hf)) as (_ & D1 & _).
  pose proof (ia_N _ (io_any _ _ Hf)) as HN.
  destruct (write_ok (list Z) (list Z) (if_N f * if_D f) (i_write_pixel f) (i_stored f)
    (i_enc f n) (i_okp f n) ltac:(nia) (i_stored_local f n Hf) (i_fmt_write f n Hf) buf s p t
    (fun x y => i_tray_pixel f n (cs x y))) as (buf' & E & L & R); try assumption.
  { intros x y Hx Hy. exists (cs x y). split; [now apply Hc|reflexivity]. }
  exists buf'. split; [exact E|].
  split; [exact L|]. intros x y Hx Hy. destruct (R x y Hx Hy) as [R1 R2]. split; [|exact R2].
  intros Hcv. specialize (R1 Hcv). rewrite (i_enc_tray f n Hf) in R1; [exact R1|].
  unfold covers, in_box in Hcv. cbn [bpos bsize] in Hcv. apply Hc; lia.
Qed.

Theorem integer_fill_exact : forall f n s init buf area cs, i_format_ok f n -> image_ok s ->
  width s * height s * (if_N f * if_D f) < 2 ^ 63 ->
  Z.of_nat (length buf) = width s * height s * (if_N f * if_D f) ->
  Z.of_nat (length init) = if_N f * if_D f -> within (bpos area) (bsize area) s -> i_channels_ok f n cs ->
  exists buf', integer_fill f init buf s area (i_tray_pixel f n cs) = Some buf' /\
    i_pixels_set f s (bpos area) (bsize area) (fun _ _ => map (unit_scale n (if_B f * if_D f)) cs) buf buf'.
Proof.
  intros f n s init buf area cs Hf Hs Hm Hl Hi Hin Hc. pose proof (i_BD f (io_any _ _ Hf)) as (_ & D1 & _).
  pose proof (ia_N _ (io_any _ _ Hf)) as HN.
  destruct (fill_ok (list Z) (list Z) (if_N f * if_D f) (i_write_pixel f) (i_stored f)
    (i_enc f n) (i_okp f n) ltac:(nia) (i_stored_local f n Hf) (i_fmt_write f n Hf) init buf s area (i_tray_pixel f n cs))
    as (buf' & E & L & R); try assumption.
  { exists cs. split; [assumption|reflexivity]. }
  exists buf'. split; [exact E|]. split; [exact L|]. intros x y Hx Hy. destruct (R x y Hx Hy) as [R1 R2].
  split; [|exact R2]. rewrite <- (i_enc_tray f n Hf cs Hc). exact R1.
Qed.

(* a buffer holds at most one image *)
Lemma i_stored_unique f a a' o cs : i_format_any f ->
  i_stored f a o cs -> i_stored f a' o cs ->
  forall i, 0 <= i < if_N f * if_D f -> word a (o + i) = word a' (o + i).
Proof.
  intros Hf [L1 S1] [_ S2] i Hi. pose proof (i_BD f Hf) as (B1 & D1 & _). pose proof (ia_N _ Hf).
  set (D := if_D f) in *. pose proof (Z.div_mod i D ltac:(lia)) as Hdm. pose proof (Z.mod_pos_bound i D ltac:(lia)) as Hmb.
  set (j := i / D) in *. assert (0 <= j < if_N f) by nia.
  destruct (nth_error (i_order_to cs f) (Z.to_nat j)) as [v|] eqn:Ev.
  2:{ apply nth_error_None in Ev. rewrite to_field_length in Ev. lia. }
  specialize (S1 _ _ Ev (i mod D) ltac:(fold D; lia)). specialize (S2 _ _ Ev (i mod D) ltac:(fold D; lia)).
  fold D in S1, S2. rewrite Z2Nat.id in S1, S2 by lia.
  replace (o + i) with (o + j * D + i mod D) by lia. congruence.
Qed.

(* Writing back the tray that was read changes nothing. *)
Theorem integer_write_back : forall f n s buf img p t, i_format_ok f n -> image_ok s ->
  width s * height s * (if_N f * if_D f) < 2 ^ 63 -> i_holds_image f s buf img -> within p t s ->
  integer_write f buf s p t
    (fun x y => i_tray_pixel f n (map (unit_scale (if_B f * if_D f) n) (img (px p + x) (py p + y)))) = Some buf.
Proof.
  intros f n s buf img p t Hf Hs Hm [Hl Hi] Hin. pose proof (io_any _ _ Hf) as Ha. pose proof (i_BD f Ha) as (_ & D1 & _).
  pose proof (ia_N _ Ha) as HN. pose proof (i_T f n Hf) as (T1 & T2 & T3 & T4).
  pose proof Hin as (P1 & P2 & P3 & P4 & P5 & P6). set (depth := if_B f * if_D f) in *.
  assert (Hr : forall x y, 0 <= x < width t -> 0 <= y < height t ->
    i_channels_ok f n (map (unit_scale depth n) (img (px p + x) (py p + y))) /\
    map (unit_scale n depth) (map (unit_scale depth n) (img (px p + x) (py p + y))) = img (px p + x) (py p + y)).
  { intros x y Hx Hy. destruct (Hi (px p + x) (py p + y)) as [[C1 C2] _]; [lia|lia|]. fold depth in C2.
    rewrite Forall_forall in C2. split; [split; [now rewrite map_length|]|].
    - apply Forall_forall. intros c Hc. apply in_map_iff in Hc as (c' & <- & Hc'). apply unit_scale_range; [lia|lia|now apply C2].
    - rewrite map_map. rewrite <- map_id. apply map_ext_in. intros c Hc. apply shrink_expand; [lia|now apply C2]. }
  destruct (integer_write_exact f n s buf p t (fun x y => map (unit_scale depth n) (img (px p + x) (py p + y))))
    as (buf' & E & (L & R)); try assumption.
  { intros x y Hx Hy. now apply Hr. }
  rewrite E. f_equal. apply nth_error_ext; [lia|]. intros k Hk. rewrite L in Hk.
  set (D := if_N f * if_D f) in *. assert (HD : 1 <= D) by nia. set (q := Z.of_nat k / D).
  pose proof (Z.div_mod (Z.of_nat k) D ltac:(lia)) as Hdm. pose proof (Z.mod_pos_bound (Z.of_nat k) D ltac:(lia)) as Hmb.
  fold q in Hdm.
  assert (Hq : 0 <= q < width s * height s) by nia.
  assert (Hw : 0 < width s) by (destruct Hs; nia).
  pose proof (Z.div_mod q (width s) ltac:(lia)) as Hdm2. pose proof (Z.mod_pos_bound q (width s) Hw) as Hmb2.
  set (y := q / width s) in *. set (x := q mod width s) in *.
  assert (Hy : 0 <= y < height s) by nia.
  destruct (R x y Hmb2 Hy) as [R1 R2].
  assert (Ek : Z.of_nat k = (y * width s + x) * D + Z.of_nat k mod D) by nia.
  assert (Ew : word buf' (Z.of_nat k) = word buf (Z.of_nat k)).
  { destruct (Hi x y Hmb2 Hy) as [_ Hst]. rewrite Ek.
    assert (Hd : covers p t x y \/ ~ covers p t x y) by (unfold covers, in_box; cbn [bpos bsize]; lia).
    destruct Hd as [Hcv|Hcv]; [|now apply R2].
    assert (Hb : px p <= x < px p + width t /\ py p <= y < py p + height t)
      by (unfold covers, in_box in Hcv; cbn [bpos bsize] in Hcv; lia).
    apply i_stored_unique with (f := f) (cs := img x y); [assumption| |exact Hst|assumption].
    replace (img x y) with (map (unit_scale n depth) (map (unit_scale depth n) (img (px p + (x - px p)) (py p + (y - py p))))).
    - now apply R1.
    - rewrite (proj2 (Hr (x - px p) (y - py p) ltac:(lia) ltac:(lia))). f_equal; lia. }
  rewrite !word_nth, !Nat2Z.id in Ew by lia. exact Ew.
Qed.


(* A buffer that holds an image, holds the image with the pixels of the area replaced
   after the tray has been written. *)
Theorem integer_write_holds : forall f n s buf img p t cs, i_format_ok f n -> image_ok s ->
  width s * height s * (if_N f * if_D f) < 2 ^ 63 -> i_holds_image f s buf img -> within p t s ->
  (forall x y, 0 <= x < width t -> 0 <= y < height t -> i_channels_ok f n (cs x y)) ->
  exists buf', integer_write f buf s p t (fun x y => i_tray_pixel f n (cs x y)) = Some buf' /\
    forall img', (forall x y, covers p t x y -> img' x y = map (unit_scale n (if_B f * if_D f)) (cs (x - px p) (y - py p))) ->
      (forall x y, ~ covers p t x y -> img' x y = img x y) -> i_holds_image f s buf' img'.
Proof.
  intros f n s buf img p t cs Hf Hs Hm [Hl Hi] Hin Hc. pose proof (io_any _ _ Hf) as Ha.
  pose proof (i_T f n Hf) as (T1 & T2 & T3 & T4).
  destruct (integer_write_exact f n s buf p t cs Hf Hs Hm Hl Hin Hc) as (buf' & E & L & R).
  exists buf'. split; [exact E|]. intros img' I1 I2. split; [lia|]. intros x y Hx Hy. destruct (R x y Hx Hy) as [R1 R2].
  assert (D : covers p t x y \/ ~ covers p t x y) by (unfold covers, in_box; cbn [bpos bsize]; lia).
  destruct D as [Hcv|Hcv].
  - rewrite I1 by assumption. split; [|now apply R1].
    unfold covers, in_box in Hcv. cbn [bpos bsize] in Hcv.
    destruct (Hc (x - px p) (y - py p)) as [C1 C2]; [lia|lia|]. rewrite Forall_forall in C2.
    split; [now rewrite map_length|]. apply Forall_forall. intros c H. apply in_map_iff in H as (c' & <- & H').
    apply unit_scale_range; [lia|lia|now apply C2].
  - rewrite I2 by assumption. destruct (Hi x y Hx Hy) as [A1 A2]. split; [exact A1|].
    apply (i_stored_local f n Hf) with (b := buf) (o := (y * width s + x) * (if_N f * if_D f)); [|exact A2].
    intros i Hi'. now apply R2.
Qed.

(* What is read after a tray has been written is the tray, cut down to the bit depth.
   Nothing is lost if the bit depth is that of the transfer representation. *)
Theorem integer_round_trip : forall f n s buf img p t cs, i_format_ok f n -> image_ok s ->
  width s * height s * (if_N f * if_D f) < 2 ^ 63 -> i_holds_image f s buf img -> within p t s ->
  (forall x y, 0 <= x < width t -> 0 <= y < height t -> i_channels_ok f n (cs x y)) ->
  let d := if_B f * if_D f in
  exists buf' qs, integer_write f buf s p t (fun x y => i_tray_pixel f n (cs x y)) = Some buf' /\
    integer_read f buf' s p t =
      Some (map (fun y => map (fun x => i_tray_pixel f n (qs x y)) (zseq 0 (Z.to_nat (width t))))
              (zseq 0 (Z.to_nat (height t)))) /\
    forall x y, 0 <= x < width t -> 0 <= y < height t ->
      qs x y = map (fun c => unit_scale d n (unit_scale n d c)) (cs x y) /\ (d = n -> qs x y = cs x y).
Proof.
  intros f n s buf img p t cs Hf Hs Hm Hh Hin Hc d. pose proof (i_T f n Hf) as (T1 & T2 & T3 & T4). fold d in T3.
  destruct (integer_write_holds f n s buf img p t cs Hf Hs Hm Hh Hin Hc) as (buf' & E & H').
  set (img' := fun x y => if ((px p <=? x) && (x <? px p + width t)) && ((py p <=? y) && (y <? py p + height t))
    then map (unit_scale n d) (cs (x - px p) (y - py p)) else img x y).
  specialize (H' img').
  assert (Hi' : i_holds_image f s buf' img').
  { apply H'; unfold covers, in_box; cbn [bpos bsize]; intros x y Hcv; unfold img'; destruct (_ && _) eqn:Eb; try reflexivity; exfalso; lia. }
  exists buf', (fun x y => map (unit_scale d n) (img' (px p + x) (py p + y))). split; [exact E|]. split.
  - now apply integer_read_exact.
  - intros x y Hx Hy. unfold img'.
    replace ((px p <=? px p + x) && (px p + x <? px p + width t) && ((py p <=? py p + y) && (py p + y <? py p + height t))) with true by lia.
    replace (px p + x - px p) with x by lia. replace (py p + y - py p) with y by lia. rewrite map_map.
    split; [reflexivity|]. intros Ed. etransitivity; [|apply map_id]. apply map_ext_in. intros c H.
    destruct (Hc x y Hx Hy) as [C1 C2]. rewrite Forall_forall in C2. specialize (C2 c H).
    rewrite Ed, !unit_scale_self by (rewrite ?unit_scale_self; lia). reflexivity.
Qed.

(* ---- size of buffers ---- *)

Theorem integer_buffer_size_exact : forall f U s, i_format_any f -> image_ok s -> ity_ok U -> isigned U = false ->
  let D := if_N f * if_D f in
  i_get_buffer_size f U s =
    Some (if (D <? 2 ^ iwidth U) && (D * width s <? 2 ^ iwidth U) && (width s * height s * D <? 2 ^ iwidth U)
          then Some (width s * height s * D) else None).
Proof.
  intros f U s Hf [Hw Hh] HU HUs D. pose proof (i_BD f Hf) as (B1 & D1 & BD & ND & _). pose proof (ia_N _ Hf) as HN.
  assert (Hd : 1 <= D < 2 ^ 31) by (unfold D; nia).
  assert (Hint : forall z, 0 <= z < 2 ^ 31 -> in_range t_int z) by (intros; unfold in_range, imin, imax; cbn; lia).
  assert (HUr : forall z, 0 <= z -> in_rangeb U z = (z <? 2 ^ iwidth U)).
  { intros z Hz. unfold in_rangeb, imin, imax. rewrite HUs. lia. }
  assert (HUi : forall z, 0 <= z < 2 ^ iwidth U -> in_range U z).
  { intros z Hz. apply in_rangeb_spec. rewrite HUr; lia. }
  pose proof (ity_ok_width _ HU). assert (2 ^ 1 <= 2 ^ iwidth U) by (apply Z.pow_le_mono_r; lia).
  assert (Ht : ity_ok t_int) by (cbn; lia).
  unfold i_get_buffer_size, i_get_words_per_row, i_words_per_pixel. fold D.
  rewrite try_int_mul_spec; [|assumption|assumption|apply HUi; lia|apply Hint; lia].
  unfold add_res. rewrite Z.mul_1_l, HUr by lia. destruct (Z.ltb_spec D (2 ^ iwidth U)) as [H1|H1]; cbn [obind andb]; [|reflexivity].
  rewrite try_int_mul_spec; [|assumption|assumption|apply HUi; lia|apply Hint; lia].
  unfold add_res. rewrite HUr by nia. destruct (Z.ltb_spec (D * width s) (2 ^ iwidth U)) as [H2|H2]; cbn [obind andb]; [|reflexivity].
  rewrite try_int_mul_spec; [|assumption|assumption|apply HUi; nia|apply Hint; lia].
  unfold add_res. rewrite HUr by nia. replace (D * width s * height s) with (width s * height s * D) by lia.
  destruct (Z.ltb_spec (width s * height s * D) (2 ^ iwidth U)) as [H3|H3]; cbn [obind]; reflexivity.
Qed.

(* ---- examples ---- *)

(* BGR with components of 12 bits in two words of 6 bits, little endian *)
Definition fmt_bgr12 : integer_format :=
  IntegerFormat 3 (ITy 8 false) 6 (ITy 16 false) 2 true false false true (ITy 8 false) (ITy 16 true) false.
(* ARGB with a word of 8 bits for each component; no conversion takes place *)
Definition fmt_argb8 : integer_format :=
  IntegerFormat 4 (ITy 8 true) 8 (ITy 8 true) 1 false true true false (ITy 8 true) (ITy 16 true) true.

Lemma fmt_bgr12_ok : i_format_ok fmt_bgr12 16.
Proof.
  constructor; [constructor; [cbn; lia|cbn; lia|cbn; lia|vm_compute; reflexivity]|cbn; lia|cbn; lia|discriminate|reflexivity].
Qed.
Lemma fmt_argb8_ok : i_format_ok fmt_argb8 8.
Proof.
  constructor; [constructor; [cbn; lia|cbn; lia|cbn; lia|vm_compute; reflexivity]|cbn; lia|cbn; lia|reflexivity|reflexivity].
Qed.

Example integer_ex :
  i_format_ok fmt_bgr12 16 /\ i_format_ok fmt_argb8 8 /\ within (Pos 1 0) (Size 1 1) (Size 2 1) /\
  i_channels_ok fmt_bgr12 16 [65535; 32768; 16] /\
  is_transf_repr_match fmt_argb8 = true /\ is_transf_repr_match fmt_bgr12 = false /\
  integer_write fmt_bgr12 [1; 2; 3; 4; 5; 6; 7; 7; 7; 7; 7; 7] (Size 2 1) (Pos 1 0) (Size 1 1)
    (fun x y => i_tray_pixel fmt_bgr12 16 [65535; 32768; 16]) = Some [1; 2; 3; 4; 5; 6; 1; 0; 0; 32; 63; 63] /\
  integer_read fmt_bgr12 [1; 2; 3; 4; 5; 6; 1; 0; 0; 32; 63; 63] (Size 2 1) (Pos 1 0) (Size 1 1) =
    Some [[[-1; -32760; 16]]] /\
  integer_fill fmt_argb8 [9; 9; 9; 9] [0; 0; 0; 0; 1; 1; 1; 1] (Size 2 1) (Box (Pos 0 0) (Size 1 1)) [1; -2; 3; -4]
    = Some [-4; 1; -2; 3; 1; 1; 1; 1] /\
  assemble_comp fmt_lum32 [5] 0 = None /\
  assemble_comp fmt_bgr12 [1; 2; 3; 4; 5; 6] 2 = Some (4 * 64 + 3) /\
  split_comp fmt_lum32 (2 ^ 32 - 1) [5] 0 = Some [-1] /\
  i_get_buffer_size fmt_bgr12 (ITy 64 false) (Size 3 5) = Some (Some 90) /\
  i_get_buffer_size fmt_bgr12 (ITy 32 false) (Size 65536 65536) = Some None.
Proof.
  split; [exact fmt_bgr12_ok|]. split; [exact fmt_argb8_ok|]. split; [unfold within; cbn; lia|].
  split; [split; [reflexivity|repeat (apply Forall_cons; [lia|]); apply Forall_nil]|].
  vm_compute. repeat split; reflexivity.
Qed.

Print Assumptions integer_comp_split.
Print Assumptions integer_comp_assemble_partial.
Print Assumptions integer_comp_assemble_undefined.
Print Assumptions integer_comp_assemble_refuted.
Print Assumptions integer_read_exact.
Print Assumptions integer_write_exact.
Print Assumptions integer_fill_exact.
Print Assumptions integer_write_back.
Print Assumptions integer_write_holds.
Print Assumptions integer_round_trip.
Print Assumptions integer_buffer_size_exact.
