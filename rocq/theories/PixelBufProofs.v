From Coq Require Import ZArith Lia Bool List ZifyBool.
From Verif Require Import CInt IntModel IntSpec IntProofs IntProofs2 IntProofs3.
From Verif Require Import PixelBoxModel PixelBoxSpec PixelBoxProps IntBitCopyProofs IntBitCopyProofs2.
From Verif Require Import BitMediumModel BitMediumSpec BitMediumProofs.
From Verif Require Import ArrLib PixelBufModel PixelBufSpec.
Import ListNotations.
Open Scope Z_scope.

(* ---- buffers ---- *)

Lemma rd_word buf k : rd buf k = word buf k.
Proof. reflexivity. Qed.

Lemma wr_ok buf k v : 0 <= k < Z.of_nat (length buf) ->
  exists buf', wr buf k v = Some buf' /\ length buf' = length buf /\
    forall i, word buf' i = if i =? k then Some v else word buf i.
Proof.
  intros H. unfold wr. replace (0 <=? k) with true by lia.
  rewrite set_nth_some by lia. eexists. split; [reflexivity|].
  assert (Es : set_nth buf (Z.to_nat k) v = Some (firstn (Z.to_nat k) buf ++ v :: skipn (S (Z.to_nat k)) buf))
    by (apply set_nth_some; lia).
  split; [eapply set_nth_length; exact Es|]. intros i. unfold word.
  destruct (Z.leb_spec 0 i).
  - rewrite (nth_error_set_nth _ _ _ _ _ Es).
    destruct (Z.eqb_spec i k) as [->|]; [now rewrite Nat.eqb_refl|].
    replace (Nat.eqb (Z.to_nat i) (Z.to_nat k)) with false; [reflexivity|].
    symmetry. apply Nat.eqb_neq. lia.
  - replace (i =? k) with false by lia. reflexivity.
Qed.

Lemma word_some buf k : 0 <= k < Z.of_nat (length buf) -> exists v, word buf k = Some v.
Proof.
  intros H. unfold word. replace (0 <=? k) with true by lia.
  destruct (nth_error buf (Z.to_nat k)) eqn:E; [eauto|]. apply nth_error_None in E. lia.
Qed.

Lemma padd_ok buf off d : 0 <= off + d <= Z.of_nat (length buf) -> padd buf off d = Some (off + d).
Proof. intros H. unfold padd. replace ((0 <=? off + d) && _) with true by lia. reflexivity. Qed.

Lemma pdiff_ok z : - 2 ^ 63 <= z < 2 ^ 63 -> pdiff z = Some z.
Proof.
  intros H. unfold pdiff. replace (in_rangeb t_ptrdiff z) with true; [reflexivity|].
  symmetry. apply in_rangeb_spec. unfold in_range, imin, imax. cbn in *. lia.
Qed.

Lemma iadd_ok a b : - 2 ^ 31 <= a + b < 2 ^ 31 -> iadd a b = Some (a + b).
Proof.
  intros H. unfold iadd. replace (in_rangeb t_int (a + b)) with true; [reflexivity|].
  symmetry. apply in_rangeb_spec. unfold in_range, imin, imax. cbn in *. lia.
Qed.

(* ---- digits ---- *)

Lemma digit_range b i p : 0 <= b -> 0 <= digit b i p < 2 ^ b.
Proof. intros. apply Z.mod_pos_bound. apply Z.pow_pos_nonneg; lia. Qed.

Lemma digit_bit b i p k : 0 <= b -> 0 <= i -> 0 <= k ->
  Z.testbit (digit b i p) k = (k <? b) && Z.testbit p (k + b * i).
Proof.
  intros Hb Hi Hk. unfold digit. destruct (Z.ltb_spec k b).
  - rewrite Z.mod_pow2_bits_low by lia. rewrite Z.div_pow2_bits by nia. reflexivity.
  - rewrite Z.mod_pow2_bits_high by lia. reflexivity.
Qed.

Lemma digit_shifted_bit b i p k : 0 < b -> 0 <= i -> 0 <= k ->
  Z.testbit (digit b i p * 2 ^ (i * b)) k = (k / b =? i) && Z.testbit p k.
Proof.
  intros Hb Hi Hk. pose proof (Z.div_mod k b ltac:(lia)). pose proof (Z.mod_pos_bound k b Hb).
  destruct (Z.ltb_spec k (i * b)).
  - rewrite Z.mul_pow2_bits_low by lia.
    replace (k / b =? i) with false; [reflexivity|]. symmetry. apply Z.eqb_neq. nia.
  - rewrite Z.mul_pow2_bits by nia. rewrite digit_bit by lia.
    replace (k - i * b + b * i) with k by lia. f_equal.
    destruct (Z.eqb_spec (k / b) i); [apply Z.ltb_lt; nia|apply Z.ltb_ge; nia].
Qed.

Lemma bits_small x n : 0 <= n -> 0 <= x -> (forall k, n <= k -> Z.testbit x k = false) -> x < 2 ^ n.
Proof.
  intros Hn Hx H. assert (E : x = x mod 2 ^ n).
  { apply Z.bits_inj'. intros k Hk. destruct (Z.ltb_spec k n).
    - now rewrite Z.mod_pow2_bits_low by lia.
    - rewrite Z.mod_pow2_bits_high by lia. apply H. lia. }
  rewrite E. apply Z.mod_pos_bound. apply Z.pow_pos_nonneg; lia.
Qed.

Lemma lor_lt a b n : 0 <= n -> 0 <= a < 2 ^ n -> 0 <= b < 2 ^ n -> 0 <= Z.lor a b < 2 ^ n.
Proof.
  intros Hn Ha Hb. assert (0 <= Z.lor a b) by (apply Z.lor_nonneg; lia). split; [assumption|].
  apply bits_small; [lia|assumption|]. intros k Hk. rewrite Z.lor_spec, (testbit_small a n), (testbit_small b n) by lia.
  reflexivity.
Qed.

(* typed operations, continued *)
Lemma cand_mask V a m : ity_ok V -> 32 <= iwidth V -> 0 <= a < 2 ^ nvb V -> 0 <= m <= nvb V ->
  cand (V, a) (V, 2 ^ m - 1) = (V, a mod 2 ^ m).
Proof.
  intros HV HW Ha Hm. unfold cand. cbn [fst snd]. rewrite uac_same by assumption.
  assert (0 < 2 ^ m) by (apply Z.pow_pos_nonneg; lia).
  assert (2 ^ m <= 2 ^ nvb V) by (apply Z.pow_le_mono_r; lia).
  rewrite (wrap_small V a), (wrap_small V (2 ^ m - 1)) by (assumption || lia).
  replace (2 ^ m - 1) with (Z.ones m) by (rewrite Z.ones_equiv; lia).
  rewrite Z.land_ones by lia. f_equal. apply wrap_small; [assumption|].
  pose proof (Z.mod_pos_bound a (2 ^ m) ltac:(lia)). lia.
Qed.

Section Words.
  Variables W V : ity.
  Variables B D : Z.
  Variable little : bool.
  Hypothesis HW : ity_ok W.
  Hypothesis HV : ity_ok V.
  Hypothesis HV32 : 32 <= iwidth V.
  Hypothesis HB : 1 <= B <= iwidth W.
  Hypothesis HD : 1 <= D.
  Hypothesis HBD : B * D <= nvb V.

  Let mp (i : Z) := if little then i else D - 1 - i.

  Lemma mp_range i : 0 <= i < D -> 0 <= mp i < D.
  Proof using. unfold mp. destruct little; lia. Qed.

  (* digit number d has been processed before iteration i *)
  Let done (i d : Z) : bool := if little then d <? i else (D - i <=? d) && (d <? D).

  Lemma read_words_spec buf off p : 0 <= p < 2 ^ (B * D) -> stored W B D little buf off p ->
    forall n i value, Z.of_nat n = D - i -> 0 <= i -> 0 <= value ->
    (forall k, 0 <= k -> Z.testbit value k = Z.testbit p k && done i (k / B)) ->
    read_words W V B D little n i buf off value = Some p.
  Proof.
    intros Hp Hs. assert (HBD1 : B * D >= 1) by nia.
    assert (Hpv : 2 ^ (B * D) <= 2 ^ nvb V) by (apply Z.pow_le_mono_r; lia).
    induction n as [|n IH]; intros i value Hn Hi Hv Hb; cbn [read_words].
    - f_equal. apply Z.bits_inj'. intros k Hk. rewrite Hb by assumption.
      destruct (Z.ltb_spec k (B * D)).
      + assert (0 <= k / B) by (apply Z.div_pos; lia).
        assert (k / B < D) by (apply Z.div_lt_upper_bound; lia).
        replace (done i (k / B)) with true; [apply andb_true_r|].
        unfold done. destruct little; lia.
      + rewrite (testbit_small p (B * D)) by lia. reflexivity.
    - unfold map_word_index. replace ((0 <=? i) && (i <? D)) with true by lia. cbn [obind].
      rewrite rd_word, (Hs i) by lia. cbn [obind]. fold (mp i).
      pose proof (mp_range i ltac:(lia)) as Hm.
      pose proof (digit_range B (mp i) p ltac:(lia)) as Hd.
      rewrite unpack_int_spec by (assumption || lia). cbn [obind].
      assert (HBv : 2 ^ B <= 2 ^ nvb V) by (apply Z.pow_le_mono_r; nia).
      rewrite wrap_small by (assumption || lia).
      assert (Hsh : 0 <= digit B (mp i) p * 2 ^ (mp i * B) < 2 ^ (B * D)).
      { assert (0 < 2 ^ (mp i * B)) by (apply Z.pow_pos_nonneg; nia). split; [nia|].
        apply Z.lt_le_trans with (2 ^ B * 2 ^ (mp i * B)); [nia|].
        rewrite <- Z.pow_add_r by nia. apply Z.pow_le_mono_r; nia. }
      assert (nvb V <= iwidth V) by apply nvb_width.
      rewrite cshl_small; [|assumption|assumption|nia|lia]. cbn [obind].
      assert (Hvr : value < 2 ^ (B * D)).
      { apply bits_small; [lia|assumption|]. intros k Hk. rewrite Hb, (testbit_small p (B * D)) by lia. reflexivity. }
      rewrite cor_small by (assumption || lia). cbn [snd].
      pose proof (lor_lt value (digit B (mp i) p * 2 ^ (mp i * B)) (B * D) ltac:(lia) ltac:(lia) Hsh) as Hl.
      rewrite wrap_small by (assumption || lia).
      apply IH; try lia. intros k Hk.
      rewrite Z.lor_spec, Hb, digit_shifted_bit by lia.
      assert (0 <= k / B) by (apply Z.div_pos; lia).
      destruct (Z.testbit p k); cbn [andb]; [|now rewrite andb_false_r].
      rewrite andb_true_r. unfold done, mp. clear - Hn Hi. destruct little.
      + destruct (Z.ltb_spec (k / B) i), (Z.eqb_spec (k / B) i), (Z.ltb_spec (k / B) (i + 1)); lia.
      + destruct (Z.leb_spec (D - i) (k / B)), (Z.ltb_spec (k / B) D), (Z.eqb_spec (k / B) (D - 1 - i)),
          (Z.leb_spec (D - (i + 1)) (k / B)); cbn; lia.
  Qed.

  Lemma read_compound_spec buf off p : 0 <= p < 2 ^ (B * D) -> stored W B D little buf off p ->
    read_compound W V B D little buf off = Some p.
  Proof.
    intros Hp Hs. unfold read_compound. apply read_words_spec; try assumption; try lia.
    intros k Hk. rewrite Z.testbit_0_l. assert (0 <= k / B) by (apply Z.div_pos; lia).
    unfold done. destruct little.
    - replace (k / B <? 0) with false by lia. now rewrite andb_false_r.
    - replace ((D - 0 <=? k / B) && (k / B <? D)) with false by lia. now rewrite andb_false_r.
  Qed.

  Lemma write_words_spec p off : 0 <= p < 2 ^ (B * D) -> 0 <= off ->
    forall n i buf, Z.of_nat n = D - i -> 0 <= i -> off + D <= Z.of_nat (length buf) ->
    exists buf', write_words W V B D little n i p buf off = Some buf' /\ length buf' = length buf /\
      forall k, word buf' k =
        if (off + i <=? k) && (k <? off + D) then Some (packed_form W B (digit B (mp (k - off)) p))
        else word buf k.
  Proof.
    intros Hp Hoff. assert (HBD1 : B * D >= 1) by nia.
    assert (Hpv : 2 ^ (B * D) <= 2 ^ nvb V) by (apply Z.pow_le_mono_r; lia).
    assert (HBv : 2 ^ B <= 2 ^ nvb V) by (apply Z.pow_le_mono_r; nia).
    assert (Hnw : nvb V <= iwidth V) by apply nvb_width.
    induction n as [|n IH]; intros i buf Hn Hi Hl; cbn [write_words].
    - exists buf. split; [reflexivity|]. split; [reflexivity|]. intros k.
      replace ((off + i <=? k) && (k <? off + D)) with false by lia. reflexivity.
    - unfold map_word_index. replace ((0 <=? i) && (i <? D)) with true by lia. cbn [obind]. fold (mp i).
      pose proof (mp_range i ltac:(lia)) as Hm.
      rewrite cshr_small by (try assumption; nia). cbn [obind].
      rewrite int_mask_spec by (try assumption; nia). cbn [obind].
      assert (Hq : 0 <= p / 2 ^ (mp i * B) < 2 ^ nvb V).
      { assert (0 < 2 ^ (mp i * B)) by (apply Z.pow_pos_nonneg; nia). split; [apply Z.div_pos; lia|].
        apply Z.le_lt_trans with p; [|lia]. apply Z.div_le_upper_bound; [lia|nia]. }
      rewrite cand_mask by (try assumption; nia). cbn [snd].
      replace (p / 2 ^ (mp i * B)) with (p / 2 ^ (B * mp i)) by (do 2 f_equal; lia).
      fold (digit B (mp i) p). pose proof (digit_range B (mp i) p ltac:(lia)) as Hd.
      rewrite wrap_small by (assumption || lia).
      rewrite pack_int_spec; [|assumption|assumption|lia|apply small_range; [assumption|lia]|lia]. cbn [obind].
      destruct (wr_ok buf (off + i) (packed_form W B (digit B (mp i) p)) ltac:(lia)) as (buf1 & E1 & L1 & N1).
      rewrite E1. cbn [obind].
      destruct (IH (i + 1) buf1) as (buf2 & E2 & L2 & N2); try lia.
      exists buf2. split; [assumption|]. split; [lia|]. intros k. rewrite N2, N1.
      destruct (Z.eqb_spec k (off + i)) as [->|].
      + replace ((off + (i + 1) <=? off + i) && _) with false by lia.
        replace ((off + i <=? off + i) && (off + i <? off + D)) with true by lia.
        replace (off + i - off) with i by lia. reflexivity.
      + destruct ((off + (i + 1) <=? k) && (k <? off + D)) eqn:Ek.
        * replace ((off + i <=? k) && (k <? off + D)) with true by lia. reflexivity.
        * replace ((off + i <=? k) && (k <? off + D)) with false by lia. reflexivity.
  Qed.

  Lemma write_compound_spec p buf off : 0 <= p < 2 ^ (B * D) -> 0 <= off ->
    off + D <= Z.of_nat (length buf) ->
    exists buf', write_compound W V B D little p buf off = Some buf' /\ length buf' = length buf /\
      stored W B D little buf' off p /\
      forall k, ~ (off <= k < off + D) -> word buf' k = word buf k.
  Proof.
    intros Hp Ho Hl. destruct (write_words_spec p off Hp Ho (Z.to_nat D) 0 buf) as (buf' & E & L & N); try lia.
    exists buf'. split; [exact E|]. split; [exact L|]. split.
    - intros i Hi. rewrite N. replace ((off + 0 <=? off + i) && (off + i <? off + D)) with true by lia.
      replace (off + i - off) with i by lia. reflexivity.
    - intros k Hk. rewrite N. replace ((off + 0 <=? k) && (k <? off + D)) with false by lia. reflexivity.
  Qed.
End Words.
