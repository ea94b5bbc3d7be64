(* Saving as PNG *)
From Coq Require Import ZArith Bool List Lia Permutation.
From Verif Require Import CInt IntModel PixelBoxModel BufFmtModel BufFmtSpec BufFmtProofs BufFmtProofs2 BufFmtProofs3 BufFmtProofs4.
From Verif Require Import ArrLib.
Import ListNotations.
Open Scope Z_scope.

Lemma cast_to_int_ok pf f wt : platform_ok pf -> format_t f ->
  cast_ok (format_ok pf f) (int_good pf f wt) (cast_to_int pf f wt).
Proof.
  intros Hpf Ht. destruct f as [f|f|f| |]; cbn [cast_to_int format_ok].
  - now apply int_to_int_ok.
  - now apply packed_to_int_ok.
  - now apply sub_to_int_ok.
  - now apply cast_no.
  - now apply cast_no.
Qed.

Lemma cast_to_sub_ok pf f wt : platform_ok pf -> format_t f ->
  cast_ok (format_ok pf f) (sub_good pf f wt) (cast_to_sub pf f wt).
Proof.
  intros Hpf Ht. destruct f as [f|f|f| |]; cbn [cast_to_sub format_ok].
  - now apply int_to_sub_ok.
  - now apply packed_to_sub_ok.
  - now apply sub_to_sub_ok.
  - now apply cast_no.
  - now apply cast_no.
Qed.

Lemma format_dec pf f : platform_ok pf -> format_t f -> format_ok pf f \/ ~ format_ok pf f.
Proof.
  intros Hpf Ht. destruct f as [f|f|f| |]; cbn [format_ok]; [| | |now left|now left].
  - destruct (int_valid_ok pf f (proj1 Ht) (proj1 (proj2 Ht))) as (b & _ & Hb). destruct b; [left; now apply Hb|right]. intros H. apply Hb in H. discriminate.
  - destruct (packed_valid_ok pf f Ht) as (b & _ & Hb). destruct b; [left; now apply Hb|right]. intros H. apply Hb in H. discriminate.
  - destruct (sub_valid_ok pf f Hpf Ht) as (b & _ & Hb). destruct b; [left; now apply Hb|right]. intros H. apply Hb in H. discriminate.
Qed.

Lemma not_throws {A} pf f (o : outcome A) : platform_ok pf -> format_t f -> (o = Throws <-> ~ format_ok pf f) -> o <> Throws -> format_ok pf f.
Proof. intros Hpf Ht H Hn. destruct (format_dec pf f Hpf Ht) as [|Hno]; [assumption|]. now apply H in Hno. Qed.

Lemma channels_same c d : cspace d = cspace c -> has_alpha d = has_alpha c -> channels d = channels c.
Proof. intros H1 H2. unfold channels. now rewrite H1, H2. Qed.

Lemma png_trans pf f f' w g : same_pixels pf f f' -> png_matches pf f' w g -> png_matches pf f w g.
Proof.
  intros (S1 & S2 & S3) (M1 & M2 & M3). split; [congruence|]. split; [congruence|]. intros k Hk.
  destruct (S3 k Hk) as [D A]. destruct (M3 k) as [D' A']; [now rewrite (channels_same (format_conf f))|].
  split; [congruence|]. intros m x y Hm Hx Hy. rewrite A' by assumption. now apply A.
Qed.

Lemma png_place_ok c g k : cspace c = (if g_rgb g then RGB else Lum) -> has_alpha c = g_alpha g ->
  g_alpha_first g = negb (Bool.eqb (alpha_first c) (rev_order c)) -> g_bgr g = rev_order c ->
  0 <= k < channels c -> png_place g k = place c k /\ png_channels g = channels c.
Proof.
  intros H1 H2 H3 H4 Hk. unfold png_place, png_channels, place, channels in *. rewrite H1, H2, H3, H4 in *. clear - Hk.
  assert (Hk4 : k = 0 \/ k = 1 \/ k = 2 \/ k = 3) by (destruct (g_rgb g), (g_alpha g); cbn [cs_channels] in Hk; lia).
  destruct (g_rgb g), (g_alpha g), (alpha_first c), (rev_order c); cbn [cs_channels] in *;
    destruct Hk4 as [->|[->|[->| ->]]]; cbn; split; reflexivity || (exfalso; lia).
Qed.

Lemma smul_ok a b : a * b < 2 ^ 64 -> smul a b = Some (a * b).
Proof. intros H. unfold smul. replace (a * b <=? size_max) with true; [reflexivity|]. unfold size_max. lia. Qed.

Lemma channels_le4 c : (match cspace c with RGB => Some true | Lum => Some false | Other _ => None end) <> None -> 1 <= channels c <= 4.
Proof. unfold channels. destruct (cspace c), (has_alpha c); cbn; intros H; lia || congruence. Qed.

Lemma match_save_ok pf f w : platform_ok pf -> format_t f -> 0 <= w < 2 ^ 31 ->
  cast_ok (format_ok pf f) (fun g => good_cast pf f Byte -> png_matches pf f w g) (match_save pf f w).
Proof.
  intros Hpf Ht Hw. unfold match_save. destruct (cast_to_int_ok pf f Byte Hpf Ht) as (o & Eo & Hth & Hy). rewrite Eo. cbn [obind].
  destruct o as [| |g].
  - apply cast_throws. now apply Hth.
  - destruct (cast_to_sub_ok pf f Byte Hpf Ht) as (o & Eo' & Hth' & Hy'). rewrite Eo'. cbn [obind].
    destruct o as [| |g].
    + apply cast_throws. now apply Hth'.
    + apply cast_no. now apply (not_throws pf f (@No int_format)).
    + destruct (Hy' g eq_refl) as (Gt & (G1 & G2 & G3) & Gs).
      assert (Hok : format_ok pf f) by now apply (not_throws pf f (@No int_format)).
      destruct ((s_bits g =? 1) || (s_bits g =? 2) || (s_bits g =? 4)) eqn:Ed; cbn [negb]; [|now apply cast_no].
      destruct (cspace (s_conf g)) eqn:Ecs; cbn [negb]; [|now apply cast_no..].
      destruct (has_alpha (s_conf g)) eqn:Eal; [now apply cast_no|].
      assert (Hn : channels (s_conf g) = 1) by (unfold channels; now rewrite Ecs, Eal).
      unfold idiv, irem. replace (s_bits g =? 0) with false by lia. cbn [obind].
      set (ppb := Z.quot 8 (s_bits g)). assert (Hppb : 1 <= ppb /\ 8 / s_bits g = ppb /\ ppb * s_bits g = 8).
      { unfold ppb. assert (s_bits g = 1 \/ s_bits g = 2 \/ s_bits g = 4) as [->|[->| ->]] by lia; repeat split; vm_compute; congruence. }
      clearbody ppb. destruct Hppb as (P1 & P2 & P3).
      destruct (s_pixels g =? ppb) eqn:Epx; cbn [negb]; [|now apply cast_no]. apply Z.eqb_eq in Epx.
      replace (ppb =? 0) with false by lia. cbn [obind].
      rewrite Z.quot_div_nonneg, Z.rem_mod_nonneg by lia.
      assert (Hdm : w = ppb * (w / ppb) + w mod ppb) by (apply Z.div_mod; lia).
      pose proof (Z.mod_pos_bound w ppb ltac:(lia)) as Hm0. assert (Hd0 : 0 <= w / ppb) by (apply Z.div_pos; lia).
      assert (Hgood : forall bytes, (s_aligned g = true /\ bytes = (w + ppb - 1) / ppb \/ s_aligned g = false /\ w = ppb * bytes) ->
        cast_ok (format_ok pf f) (fun g => good_cast pf f Byte -> png_matches pf f w g)
          (Some (Yes (PngFormat (s_bits g) false false false false false (negb (endian_eqb (s_order g) Big)) bytes)))).
      { intros bytes Hb. apply cast_yes; [exact Hok|]. intros _. apply (png_trans pf f (FSub g)); [exact Gs|].
        split; [cbn; exact Ecs|]. split; [cbn; exact Eal|]. cbn [format_conf]. rewrite Hn. intros k Hk. split; [reflexivity|].
        intros m x y Hm Hx Hy0. cbn [access]. unfold png_access, sub_access, png_channels. cbn [g_depth g_rgb g_alpha g_alpha_first g_bgr g_swap_bytes g_swap_bits g_bytes_per_row].
        replace (png_place _ k) with 0 by (unfold png_place; cbn; replace (k =? 1) with false by lia; lia).
        replace (s_bits g =? 8) with false by lia. replace (s_bits g =? 16) with false by lia. rewrite P2, Hn, Gt, Epx.
        change (x * (1 + 0) + 0) with (x * 1 + 0). rewrite Z.mul_1_r, Z.add_0_r.
        assert (Hcok : place (s_conf g) k = 0) by (unfold place; rewrite Hn, Eal; cbn [andb]; destruct (rev_order (s_conf g)); lia).
        rewrite Hcok.
        destruct Hb as [[-> ->]|[-> Hb]].
        - rewrite word_byte by assumption. f_equal. destruct (s_order g); cbn [endian_eqb negb]; lia.
        - replace ((y * w + x) / ppb) with (y * bytes + x / ppb) by (rewrite Hb; replace (y * (ppb * bytes) + x) with ((y * bytes) * ppb + x) by ring; now rewrite Z.div_add_l by lia).
          replace ((y * w + x) mod ppb) with (x mod ppb) by (rewrite Hb; replace (y * (ppb * bytes) + x) with (x + (y * bytes) * ppb) by ring; now rewrite Z.mod_add by lia).
          rewrite word_byte by assumption. f_equal. destruct (s_order g); cbn [endian_eqb negb]; lia. }
      destruct (w mod ppb =? 0) eqn:Er; cbn [negb obind].
      * apply Hgood. destruct (s_aligned g); [left|right]; (split; [reflexivity|]); [|lia].
        apply Z.eqb_eq in Er. rewrite Hdm at 2. rewrite Er. replace (ppb * (w / ppb) + 0 + ppb - 1) with (w / ppb * ppb + (ppb - 1)) by ring.
        rewrite Z.div_add_l, (Z.div_small (ppb - 1)) by lia. lia.
      * destruct (s_aligned g) eqn:Eag; cbn [negb obind]; [|now apply cast_no].
        assert (w / ppb <= w) by (apply Z.div_le_upper_bound; nia).
        assert (w / ppb < w \/ w = 0) by (destruct (Z.eq_dec w 0); [now right|left]; apply Z.div_lt; [lia|]; destruct (Z.eq_dec ppb 1) as [->|]; [rewrite Z.mod_1_r in Er; discriminate|lia]).
        rewrite iadd_spec. replace (in_rangeb t_int (w / ppb + 1)) with true by (symmetry; apply rangeb_int; lia). cbn [obind].
        apply Hgood. left. split; [reflexivity|]. rewrite Hdm at 2.
        replace (ppb * (w / ppb) + w mod ppb + ppb - 1) with ((w / ppb + 1) * ppb + (w mod ppb - 1)) by ring.
        rewrite Z.div_add_l, (Z.div_small (w mod ppb - 1)) by lia. lia.
  - destruct (Hy g eq_refl) as (Gt & (G1 & G2 & G3 & G4) & Gs).
    assert (Hok : format_ok pf f) by now apply (not_throws pf f (Yes g)).
    destruct (i_bits g =? 8) eqn:E8; cbn [negb]; [|now apply cast_no]. apply Z.eqb_eq in E8.
    set (d := if i_words g =? 1 then _ else _). destruct d as [[dep swap]|] eqn:Ed; [|now apply cast_no].
    assert (Hd : (i_words g = 1 /\ dep = 8) \/ (i_words g = 2 /\ dep = 16 /\ swap = endian_eqb (i_order g) Little)).
    { subst d. destruct (i_words g =? 1) eqn:E1; [left; injection Ed as <- <-; lia|]. destruct (i_words g =? 2) eqn:E2; [right|discriminate].
      injection Ed as <- <-. repeat split; lia. }
    clear d Ed. set (color := match cspace (i_conf g) with RGB => Some true | Lum => Some false | Other _ => None end).
    destruct color as [rgb|] eqn:Ec; [|now apply cast_no].
    assert (H4 : 1 <= channels (i_conf g) <= 4) by (apply channels_le4; fold color; congruence).
    assert (Hcs : cspace (i_conf g) = if rgb then RGB else Lum) by (unfold color in Ec; destruct (cspace (i_conf g)); try discriminate; injection Ec as <-; reflexivity).
    rewrite num_channels_ok by (split; [destruct (cspace (i_conf g)); cbn; try lia; discriminate|lia]). cbn [obind].
    assert (Hww : 1 <= i_words g <= 2) by lia.
    rewrite smul_ok by lia. cbn [obind]. rewrite smul_ok by nia. cbn [obind]. rewrite smul_ok by nia.
    apply cast_yes; [exact Hok|]. intros Hgc. apply (png_trans pf f (FInt g)); [now apply Gs|].
    split; [cbn; exact Hcs|]. split; [reflexivity|]. cbn [format_conf]. intros k Hk. split; [cbn [depth g_depth]; rewrite E8; lia|].
    intros m x y Hm Hx Hy0. cbn [access]. unfold png_access, int_access.
    set (G := PngFormat _ _ _ _ _ _ _ _). destruct (png_place_ok (i_conf g) G k) as [-> ->]; [exact Hcs|reflexivity|reflexivity|reflexivity|exact Hk|].
    cbn [G g_depth g_swap_bytes g_bytes_per_row]. rewrite Gt, E8.
    assert (Hlow : forall i, low_bits 8 (word pf m Byte i) = m i) by (intros i; rewrite word_byte by assumption; apply low_bits_small; apply Hm).
    destruct Hd as [[Hw1 ->]|[Hw2 [-> ->]]].
    + cbn [Z.eqb Pos.eqb]. rewrite Hw1, sequence_single, assemble_single, Hlow. f_equal. ring.
    + cbn [Z.eqb Pos.eqb]. rewrite Hw2. rewrite (sequence_ext 2 _ (fun j => m (((y * w + x) * channels (i_conf g) + place (i_conf g) k) * 2 + j))) by (intros; apply Hlow).
      change (sequence 2 ?F) with [F 0; F 1]. cbn beta.
      match goal with |- _ = assemble _ _ [m ?a; m ?b] => match goal with |- (if _ then m ?a' + 256 * m ?b' else _) = _ => replace a' with a by ring; replace b' with b by ring; generalize (m a), (m b) end end.
      intros u v. change (2 ^ 8) with 256. destruct (i_order g); cbn [endian_eqb assemble rev app number fold_right]; ring.
Qed.
