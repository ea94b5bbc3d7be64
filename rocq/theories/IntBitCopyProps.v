(* C53: conversion of numbers between arrays of parts of different width, and the
   conversion of a two's complement bit pattern to a signed type built on it. *)
From Coq Require Import ZArith Lia Bool List ZifyBool.
From Verif Require Import CInt IntModel IntSpec IntProofs.
From Verif Require Import ArrLib IntBitCopyModel IntBitCopySpec IntBitCopyProofs IntBitCopyProofs2.
Import ListNotations.
Open Scope Z_scope.

(* No shift is out of range, no index is out of bounds, and the destination denotes
   the source number, sign or zero extended, reduced to the destination width. *)
Theorem int_bit_copy_exact : forall pw1 pw2 from_signed parts_1 parts_2,
  1 <= pw1 -> 1 <= pw2 -> parts_1 <> [] -> parts_2 <> [] -> parts_ok pw1 parts_1 ->
  exists r, int_bit_copy pw1 pw2 from_signed parts_1 parts_2 = Some r /\
    length r = length parts_2 /\ parts_ok pw2 r /\
    parts_value pw2 r =
      pattern_value from_signed (pw1 * Z.of_nat (length parts_1)) (parts_value pw1 parts_1)
        mod 2 ^ (pw2 * Z.of_nat (length parts_2)).
Proof.
  intros pw1 pw2 fs p1 p2 H1 H2 N1 N2 Ok. apply int_bit_copy_spec; try assumption.
  - destruct p1; [congruence|cbn; lia].
  - destruct p2; [congruence|cbn; lia].
Qed.

(* three 24-bit parts into four 20-bit parts, and four 5-bit parts into three 16-bit ones *)
Example int_bit_copy_ex :
  int_bit_copy 24 20 true [0xABCDEF; 0x123456; 0xFEDCBA] [0; 0; 0; 0] = Some [0xBCDEF; 0x3456A; 0xCBA12; 0xFFFED] /\
  int_bit_copy 5 16 true [0x11; 0x02; 0x13; 0x1F] [7; 7; 7] = Some [0xCC51; 0xFFFF; 0xFFFF] /\
  int_bit_copy 5 16 false [0x11; 0x02; 0x13; 0x1F] [7; 7; 7] = Some [0xCC51; 0x000F; 0].
Proof. vm_compute. auto. Qed.

(* splitting a builtin integer into parts and assembling it again *)
Theorem builtin_parts_round_trip : forall T v, ity_ok T -> representable T v ->
  exists r, int_bit_copy (iwidth (part_type T)) (iwidth (part_type T)) (isigned T) (get_parts T v) [0] = Some r /\
    from_parts T r = Some v.
Proof.
  intros T v HT Hv. apply representable_in_range in Hv.
  pose proof (promo_width T HT) as [W1 W2]. pose proof (ity_ok_width _ HT).
  pose proof (wrap_range (part_type T) v (part_type_ok T HT)) as Hr.
  change (part_type T) with (ITy (iwidth (promo T)) false) in Hr. apply urange in Hr.
  change (ITy (iwidth (promo T)) false) with (part_type T) in Hr.
  destruct (int_bit_copy_exact (iwidth (part_type T)) (iwidth (part_type T)) (isigned T) (get_parts T v) [0])
    as (r & E & L & Ok & Vr); try discriminate; try (rewrite part_type_width; lia).
  { constructor; [rewrite part_type_width; lia|constructor]. }
  exists r. split; [assumption|].
  destruct r as [|x [|? ?]]; cbn [length] in L; try discriminate.
  unfold get_parts in Vr. cbn [parts_value length] in Vr. rewrite Z.mul_0_r, !Z.add_0_r in Vr.
  change (Z.of_nat 1) with 1 in Vr. rewrite !Z.mul_1_r in Vr. rewrite !part_type_width in *.
  set (W := iwidth (promo T)) in *. set (p := wrap (part_type T) v) in *.
  assert (Ep : p = v mod 2 ^ W) by reflexivity.
  assert (Hx : x = p).
  { rewrite Vr. unfold pattern_value. destruct (isigned T && (2 ^ (W - 1) <=? p)).
    - symmetry. apply Z.mod_unique with (-1); lia.
    - apply Z.mod_small. lia. }
  rewrite Hx. assert (HsW : 2 ^ W = 2 * 2 ^ (W - 1)).
  { rewrite <- Z.pow_succ_r by lia. f_equal. lia. }
  assert (2 ^ iwidth T <= 2 ^ W) by (apply Z.pow_le_mono_r; lia).
  destruct (isigned T) eqn:ST.
  - rewrite from_parts_spec by assumption. f_equal. fold W.
    assert (2 ^ (iwidth T - 1) <= 2 ^ (W - 1)) by (apply Z.pow_le_mono_r; lia).
    assert (Hv' : - 2 ^ (iwidth T - 1) <= v < 2 ^ (iwidth T - 1)).
    { unfold in_range, imin, imax in Hv. rewrite ST in Hv. lia. }
    replace (signed_value W p) with v; [now apply wrap_id|].
    unfold signed_value. rewrite Ep. destruct (Z.ltb_spec v 0).
    + replace (v mod 2 ^ W) with (v + 2 ^ W) by (apply Z.mod_unique with (-1); lia).
      destruct (Z.ltb_spec (v + 2 ^ W) (2 ^ (W - 1))); lia.
    + rewrite Z.mod_small by lia. destruct (Z.ltb_spec v (2 ^ (W - 1))); lia.
  - unfold from_parts. cbn [nth_error obind]. rewrite ST. cbn [negb]. f_equal.
    assert (Hv' : 0 <= v < 2 ^ iwidth T).
    { unfold in_range, imin, imax in Hv. rewrite ST in Hv. lia. }
    rewrite Ep, Z.mod_small by lia. now apply wrap_id.
Qed.

Example builtin_parts_ex : get_parts (ITy 16 true) (-2) = [4294967294] /\
  from_parts (ITy 16 true) [4294967294] = Some (-2).
Proof. vm_compute. auto. Qed.

(* An unsigned pattern is read as two's complement.  If the number it denotes fits in
   the target type, the result is that number. *)
Theorem cast_from_twos_compl_a_exact : forall T F v, ity_ok T -> ity_ok F ->
  isigned F = false -> isigned T = true -> representable F v ->
  exists r, cast_from_twos_compl_a T F v = Some r /\
    representable T r /\
    (exists k, r = signed_value (iwidth F) v + k * 2 ^ iwidth T) /\
    (representable T (signed_value (iwidth F) v) -> r = signed_value (iwidth F) v).
Proof.
  intros T F v HT HF SF ST Hv. apply representable_in_range in Hv.
  assert (Hr : 0 <= v < 2 ^ iwidth F).
  { unfold in_range, imin, imax in Hv. rewrite SF in Hv. lia. }
  rewrite cast_from_twos_compl_a_spec by assumption. eexists. split; [reflexivity|].
  split; [apply representable_in_range; now apply wrap_range|].
  split; [now apply wrap_cong|].
  intros H. apply representable_in_range in H. now apply wrap_id.
Qed.

Example cast_from_twos_compl_a_ex :
  cast_from_twos_compl_a (ITy 16 true) (ITy 32 false) 0xFFFF8000 = Some (-32768) /\
  cast_from_twos_compl_a (ITy 64 true) (ITy 8 false) 0x80 = Some (-128) /\
  representable (ITy 16 true) (signed_value 32 0xFFFF8000).
Proof. vm_compute. split; [reflexivity|]. split; [reflexivity|]. split; [discriminate|reflexivity]. Qed.

Print Assumptions int_bit_copy_exact.
Print Assumptions builtin_parts_round_trip.
Print Assumptions cast_from_twos_compl_a_exact.
