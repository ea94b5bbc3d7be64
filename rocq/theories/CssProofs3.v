(* Proofs about formatting of the hexadecimal form *)
From Coq Require Import ZArith Lia Zify.
From Coq Require Import List Bool.
From Verif Require Import CInt IntSpec IntTextModel IntTextSpec IntTextProofs IntTextProps BitMediumProofs
  CssModel CssSpec CssProofs CssProofs2 ArrLib.
Import ListNotations.
Open Scope Z_scope.

Definition digit (d : Z) : Prop := 0 <= d < 16.

Lemma positional_bound ds : Forall digit ds -> 0 <= positional 16 ds < 16 ^ Z.of_nat (length ds).
Proof.
  induction 1 as [|d ds H _ IH]; cbn [positional length]; [cbn; lia|].
  rewrite Nat2Z.inj_succ, Z.pow_succ_r by lia. unfold digit in H. nia.
Qed.

Lemma positional_inj ds : forall es, length ds = length es -> Forall digit ds -> Forall digit es ->
  positional 16 ds = positional 16 es -> ds = es.
Proof.
  induction ds as [|d ds IH]; intros [|e es] L Hd He E; try discriminate L; [reflexivity|].
  injection L as L. inversion Hd; subst. inversion He; subst. cbn [positional] in E. rewrite <- L in E.
  pose proof (positional_bound ds ltac:(assumption)) as B1. pose proof (positional_bound es ltac:(assumption)) as B2.
  rewrite <- L in B2. assert (d = e) as -> by nia. f_equal. apply IH; auto. lia.
Qed.

Lemma upper_digits cs ds : Forall2 digit_char cs ds -> Forall (fun d => d < 16) ds ->
  Forall (fun c => ~ (97 <= c <= 122)) cs -> cs = map upper_digit ds.
Proof.
  induction 1 as [|c d cs ds H _ IH]; intros H1 H2; [reflexivity|]. inversion H1; subst. inversion H2; subst.
  cbn [map]. f_equal; [|auto]. unfold upper_digit, digit_char in *. destruct (d <? 10) eqn:E; lia.
Qed.

Lemma format_digits ds value n : Forall digit ds -> Z.of_nat (length ds) = n -> positional 16 ds = value ->
  (length ds <= 8)%nat ->
  format_a (fun c => c) rgba_type false value 16 n = Some (Some (map upper_digit ds)).
Proof.
  intros Hd Hn Hv H8. pose proof (positional_bound ds Hd) as B. rewrite Hn, Hv in B.
  assert (B8 : 16 ^ n <= 16 ^ 8) by (apply Z.pow_le_mono_r; lia).
  destruct (format_exact Z (fun c => c) rgba_type false value 16 n) as (m & cs & es & Hm & _ & E & [F G] & P & U & L1 & L2);
    [unfold ity_ok; cbn; lia|unfold representable; cbn [isigned iwidth rgba_type]; lia|lia|].
  rewrite E. replace (value <? 0) with false by lia. cbn [app]. rewrite map_id. f_equal. f_equal.
  rewrite Hm in * by lia. clear m Hm.
  assert (Ge : Forall digit es).
  { clear - F G. induction F; constructor; inversion G; subst; auto. unfold digit. apply digit_char_range in H. lia. }
  assert (Lc : length cs = length es).
  { clear - F. induction F; cbn; congruence. }
  rewrite (upper_digits cs es F G U). f_equal. apply positional_inj; auto; [|lia].
  destruct (Nat.eq_dec (length es) (length ds)) as [X|X]; [exact X|exfalso].
  destruct es as [|e es]; [cbn in *; lia|].
  destruct (Z.eq_dec e 0) as [->|Z0]; [specialize (L2 es eq_refl); lia|].
  inversion Ge; subst. cbn [positional] in P. cbn [length] in *.
  pose proof (positional_bound es ltac:(assumption)) as B2.
  assert (16 ^ Z.of_nat (length ds) <= 16 ^ Z.of_nat (length es)) by (apply Z.pow_le_mono_r; lia).
  unfold digit in *. nia.
Qed.

Lemma nibbles v : 0 <= v < 256 -> (Z.shiftr v 4 =? Z.land v 15) = (v mod 17 =? 0).
Proof.
  intros H. rewrite land15, Z.shiftr_div_pow2 by lia. change (2 ^ 4) with 16.
  destruct (v mod 17 =? 0) eqn:E; [apply Z.eqb_eq in E; apply Z.eqb_eq|apply Z.eqb_neq in E; apply Z.eqb_neq]; lia.
Qed.

Lemma format_hex_ok x disable : hex_ok x ->
  format_hex (h_r x) (h_g x) (h_b x) (h_a x) disable = Some (hex_form (negb disable) x).
Proof.
  destruct x as [r g b a]. unfold hex_ok. cbn [h_r h_g h_b h_a]. intros (Hr & Hg & Hb & Ha).
  unfold format_hex. rewrite !nibbles by assumption. rewrite !land15.
  unfold hex_form, color_digits, short_possible. cbn [h_r h_g h_b h_a].
  set (sp := negb disable && _ && _ && _ && _).
  replace (negb disable && ((r mod 17 =? 0) && (g mod 17 =? 0) && (b mod 17 =? 0) && (a mod 17 =? 0))) with sp
    by (unfold sp; rewrite !andb_assoc; reflexivity).
  replace (255 <=? a) with (a =? 255) by lia.
  assert (Sp : sp = true -> r mod 17 = 0 /\ g mod 17 = 0 /\ b mod 17 = 0 /\ a mod 17 = 0).
  { unfold sp. rewrite !andb_true_iff, !Z.eqb_eq. tauto. }
  assert (W : forall v k, 0 <= k -> 0 <= v * 2 ^ k < 2 ^ 32 -> wrap rgba_type (Z.shiftl v k) = v * 2 ^ k).
  { intros v k Hk Hv. unfold wrap, rgba_type. cbn [isigned iwidth]. rewrite Z.shiftl_mul_pow2 by lia. apply Z.mod_small. lia. }
  pose proof lor_shift_add as L.
  destruct sp.
  - destruct (Sp eq_refl) as (R & G & B & A). clear Sp. destruct (a =? 255) eqn:E.
    + rewrite !W by lia. cbv beta zeta iota.
      rewrite (L (r mod 16) (g mod 16 * 2 ^ 4) 8) by lia.
      replace (r mod 16 * 2 ^ 8 + g mod 16 * 2 ^ 4) with ((r mod 16 * 16 + g mod 16) * 2 ^ 4) by lia. rewrite L by lia.
      rewrite (format_digits [r / 17; g / 17; b / 17] _ 3); [reflexivity| | | |].
      * unfold digit. repeat constructor; lia.
      * reflexivity.
      * cbn [positional length]. lia.
      * cbn; lia.
    + rewrite !W by lia. cbv beta zeta iota.
      rewrite (L (r mod 16) (g mod 16 * 2 ^ 8) 12) by lia.
      replace (r mod 16 * 2 ^ 12 + g mod 16 * 2 ^ 8) with ((r mod 16 * 16 + g mod 16) * 2 ^ 8) by lia. rewrite L by lia.
      replace ((r mod 16 * 16 + g mod 16) * 2 ^ 8 + b mod 16 * 2 ^ 4) with
        ((r mod 16 * 256 + g mod 16 * 16 + b mod 16) * 2 ^ 4) by lia. rewrite L by lia.
      rewrite (format_digits [r / 17; g / 17; b / 17; a / 17] _ 4); [reflexivity| | | |].
      * unfold digit. repeat constructor; lia.
      * reflexivity.
      * cbn [positional length]. lia.
      * cbn; lia.
  - clear Sp. destruct (a =? 255) eqn:E.
    + rewrite !W by lia. cbv beta zeta iota.
      rewrite (L r (g * 2 ^ 8) 16) by lia.
      replace (r * 2 ^ 16 + g * 2 ^ 8) with ((r * 256 + g) * 2 ^ 8) by lia. rewrite L by lia.
      rewrite (format_digits [r / 16; r mod 16; g / 16; g mod 16; b / 16; b mod 16] _ 6); [reflexivity| | | |].
      * unfold digit. repeat constructor; lia.
      * reflexivity.
      * cbn [positional length]. lia.
      * cbn; lia.
    + rewrite !W by lia. cbv beta zeta iota.
      rewrite (L r (g * 2 ^ 16) 24) by lia.
      replace (r * 2 ^ 24 + g * 2 ^ 16) with ((r * 256 + g) * 2 ^ 16) by lia. rewrite L by lia.
      replace ((r * 256 + g) * 2 ^ 16 + b * 2 ^ 8) with ((r * 65536 + g * 256 + b) * 2 ^ 8) by lia. rewrite L by lia.
      rewrite (format_digits [r / 16; r mod 16; g / 16; g mod 16; b / 16; b mod 16; a / 16; a mod 16] _ 8); [reflexivity| | | |].
      * unfold digit. repeat constructor; lia.
      * reflexivity.
      * cbn [positional length]. lia.
      * cbn; lia.
Qed.

Lemma upper_hex_digit d : digit d -> hex_digit (upper_digit d) d.
Proof. unfold digit, hex_digit, digit_char, upper_digit. destruct (d <? 10) eqn:E; lia. Qed.

Lemma hex_form_text x short : hex_ok x -> exists t, hex_form short x = 35 :: t /\ hex_text t x.
Proof.
  destruct x as [r g b a]. unfold hex_ok. cbn [h_r h_g h_b h_a]. intros (Hr & Hg & Hb & Ha).
  eexists. split; [reflexivity|]. unfold color_digits, short_possible. cbn [h_r h_g h_b h_a].
  destruct (short && _) eqn:S.
  - apply andb_true_iff in S. destruct S as [_ S]. rewrite !andb_true_iff, !Z.eqb_eq in S.
    destruct S as [[[S1 S2] S3] S4].
    destruct (a =? 255) eqn:E; cbn [app map].
    + replace (Hex r g b a) with (Hex (17 * (r / 17)) (17 * (g / 17)) (17 * (b / 17)) 255) by (f_equal; lia).
      constructor; apply upper_hex_digit; unfold digit; lia.
    + replace (Hex r g b a) with (Hex (17 * (r / 17)) (17 * (g / 17)) (17 * (b / 17)) (17 * (a / 17))) by (f_equal; lia).
      constructor; apply upper_hex_digit; unfold digit; lia.
  - clear S. destruct (a =? 255) eqn:E; unfold two_digits; cbn [app map].
    + replace (Hex r g b a) with (Hex (16 * (r / 16) + r mod 16) (16 * (g / 16) + g mod 16) (16 * (b / 16) + b mod 16) 255)
        by (f_equal; lia).
      constructor; apply upper_hex_digit; unfold digit; lia.
    + replace (Hex r g b a) with (Hex (16 * (r / 16) + r mod 16) (16 * (g / 16) + g mod 16) (16 * (b / 16) + b mod 16)
        (16 * (a / 16) + a mod 16)) by (f_equal; lia).
      constructor; apply upper_hex_digit; unfold digit; lia.
Qed.
