From Coq Require Import ZArith Lia Bool List.
From Verif Require Import ArrLib IntBitCopyModel IntBitCopySpec.
From Verif Require WordWrapProofs2.
Import ListNotations.
Open Scope Z_scope.

Lemma chunk_ext w P x V : 0 <= w -> 0 <= P ->
  (forall b, 0 <= b < w -> Z.testbit x b = Z.testbit V (P + b)) ->
  x mod 2 ^ w = (V / 2 ^ P) mod 2 ^ w.
Proof.
  intros Hw HP H. apply Z.bits_inj'. intros n Hn.
  destruct (Z.ltb_spec n w).
  - rewrite !Z.mod_pow2_bits_low by lia. rewrite H by lia.
    rewrite Z.div_pow2_bits by lia. f_equal. lia.
  - rewrite !Z.mod_pow2_bits_high by lia. reflexivity.
Qed.

Lemma testbit_small a n b : 0 <= a < 2 ^ n -> n <= b -> Z.testbit a b = false.
Proof.
  intros Ha Hb. destruct (Z.ltb_spec n 0) as [H|H].
  { rewrite Z.pow_neg_r in Ha by lia. lia. }
  rewrite <- (Z.mod_small a (2 ^ n)) by lia. apply Z.mod_pow2_bits_high. lia.
Qed.

Lemma parts_value_range w l : 0 <= w -> parts_ok w l ->
  0 <= parts_value w l < 2 ^ (w * Z.of_nat (length l)).
Proof.
  intros Hw H. induction H as [|p l Hp Hl IH]; cbn [parts_value length].
  { rewrite Z.mul_0_r. lia. }
  replace (w * Z.of_nat (S (length l))) with (w + w * Z.of_nat (length l)) by lia.
  rewrite Z.pow_add_r by lia.
  assert (0 < 2 ^ w) by (apply Z.pow_pos_nonneg; lia). nia.
Qed.

Lemma parts_value_bit w l : 1 <= w -> parts_ok w l -> forall k, 0 <= k ->
  Z.testbit (parts_value w l) k = Z.testbit (nth (Z.to_nat (k / w)) l 0) (k mod w).
Proof.
  intros Hw H. induction H as [|p l Hp Hl IH]; intros k Hk.
  { cbn [parts_value]. destruct (Z.to_nat (k / w)); cbn [nth]; now rewrite !Z.testbit_0_l. }
  cbn [parts_value].
  assert (0 < 2 ^ w) by (apply Z.pow_pos_nonneg; lia).
  destruct (Z.ltb_spec k w).
  - rewrite Z.div_small, Z.mod_small by lia. cbn [nth].
    rewrite <- (Z.mod_pow2_bits_low _ w) by lia.
    rewrite (Z.mul_comm (2 ^ w)), Z.mod_add, Z.mod_small by lia. reflexivity.
  - replace k with (k - w + w) at 1 by lia. rewrite <- Z.div_pow2_bits by lia.
    rewrite (Z.mul_comm (2 ^ w)), Z.div_add, Z.div_small by lia. cbn [Z.add].
    rewrite IH by lia.
    assert (E : k / w = (k - w) / w + 1).
    { replace k with (k - w + 1 * w) at 1 by lia. rewrite Z.div_add by lia. reflexivity. }
    rewrite E. assert (0 <= (k - w) / w) by (apply Z.div_pos; lia).
    rewrite Z2Nat.inj_add by lia. rewrite Nat.add_1_r. cbn [nth].
    assert (Em : k mod w = (k - w) mod w).
    { replace k with (k - w + 1 * w) at 1 by lia. rewrite Z.mod_add by lia. reflexivity. }
    rewrite Em. reflexivity.
Qed.

Lemma parts_value_chunks w l V : 1 <= w ->
  (forall j, (j < length l)%nat -> nth_error l j = Some ((V / 2 ^ (w * Z.of_nat j)) mod 2 ^ w)) ->
  parts_ok w l /\ parts_value w l = V mod 2 ^ (w * Z.of_nat (length l)).
Proof.
  intros Hw. assert (Hp : 0 < 2 ^ w) by (apply Z.pow_pos_nonneg; lia).
  revert V. induction l as [|p l IH]; intros V H.
  { split; [constructor|]. cbn [parts_value length]. rewrite Z.mul_0_r. now rewrite Z.mod_1_r. }
  pose proof (H 0%nat ltac:(cbn [length]; lia)) as H0. cbn [nth_error] in H0.
  rewrite Z.mul_0_r in H0. change (2 ^ 0) with 1 in H0. rewrite Z.div_1_r in H0.
  assert (Ep : p = V mod 2 ^ w) by congruence.
  destruct (IH (V / 2 ^ w)) as (Ha & Hb).
  { intros j Hj. specialize (H (S j) ltac:(cbn [length]; lia)). cbn [nth_error] in H.
    rewrite H. do 2 f_equal. rewrite Z.div_div by lia. f_equal.
    rewrite <- Z.pow_add_r by lia. f_equal. lia. }
  split.
  - constructor; [|assumption]. rewrite Ep. apply Z.mod_pos_bound. lia.
  - cbn [parts_value length]. rewrite Hb, Ep.
    replace (w * Z.of_nat (S (length l))) with (w + w * Z.of_nat (length l)) by lia.
    rewrite Z.pow_add_r by lia.
    rewrite Z.rem_mul_r; [reflexivity|lia|].
    apply Z.pow_pos_nonneg; lia.
Qed.

(* the bits of the denoted number, extended to infinity *)
Lemma pattern_value_bit sg n v k : 1 <= n -> 0 <= v < 2 ^ n -> 0 <= k ->
  Z.testbit (pattern_value sg n v) k =
  if k <? n then Z.testbit v k else sg && Z.testbit v (n - 1).
Proof.
  intros Hn Hv Hk. unfold pattern_value.
  assert (Hs : 2 ^ n = 2 * 2 ^ (n - 1)).
  { rewrite <- Z.pow_succ_r by lia. f_equal. lia. }
  assert (Ht : Z.testbit v (n - 1) = (2 ^ (n - 1) <=? v)).
  { rewrite Z.testbit_odd, Z.shiftr_div_pow2 by lia.
    assert (0 < 2 ^ (n - 1)) by (apply Z.pow_pos_nonneg; lia).
    destruct (Z.leb_spec (2 ^ (n - 1)) v).
    - replace (v / 2 ^ (n - 1)) with 1; [reflexivity|].
      apply Z.div_unique with (v - 2 ^ (n - 1)); lia.
    - rewrite Z.div_small by lia. reflexivity. }
  rewrite Ht. destruct (sg && (2 ^ (n - 1) <=? v)) eqn:E.
  - destruct (Z.ltb_spec k n).
    + rewrite <- (Z.mod_pow2_bits_low (v - 2 ^ n) n) by lia.
      replace (v - 2 ^ n) with (v + (-1) * 2 ^ n) by lia.
      rewrite Z.mod_add, Z.mod_small by lia. reflexivity.
    + rewrite Z.testbit_odd, Z.shiftr_div_pow2 by lia.
      assert (2 ^ n <= 2 ^ k) by (apply Z.pow_le_mono_r; lia).
      replace ((v - 2 ^ n) / 2 ^ k) with (-1); [reflexivity|].
      apply Z.div_unique with (v - 2 ^ n + 2 ^ k); lia.
  - destruct (Z.ltb_spec k n); [reflexivity|]. now apply testbit_small with n.
Qed.

Section BitCopy.
  Variables pw1 pw2 : Z.
  Variable fs : bool.
  Hypothesis Hpw1 : 1 <= pw1.
  Hypothesis Hpw2 : 1 <= pw2.
  Notation tw := (tw pw1 pw2).
  Notation shl := (shl pw1 pw2).
  Notation shr := (shr pw1 pw2).
  Notation ty := (ty pw1 pw2).

  Lemma tw_bounds : 32 <= tw /\ pw1 <= tw /\ pw2 <= tw.
  Proof. unfold IntBitCopyModel.tw. lia. Qed.

  Lemma shl_some z n : 0 <= n < tw ->
    exists r, shl z n = Some r /\ forall b, 0 <= b < tw -> Z.testbit r b = Z.testbit z (b - n).
  Proof.
    intros H. unfold IntBitCopyModel.shl.
    replace ((0 <=? n) && (n <? tw)) with true by (symmetry; apply andb_true_intro; split; lia).
    eexists. split; [reflexivity|]. intros b Hb. unfold IntBitCopyModel.ty.
    rewrite Z.mod_pow2_bits_low by lia. apply Z.shiftl_spec. lia.
  Qed.

  Lemma shl2_some z c : 1 <= c <= tw ->
    exists a r, shl z 1 = Some a /\ shl a (c - 1) = Some r /\
    forall b, 0 <= b < tw -> Z.testbit r b = Z.testbit z (b - c).
  Proof.
    intros H. pose proof tw_bounds.
    destruct (shl_some z 1) as (a & Ea & Ba); [lia|].
    destruct (shl_some a (c - 1)) as (r & Er & Br); [lia|].
    exists a, r. split; [assumption|]. split; [assumption|].
    intros b Hb. rewrite Br by assumption.
    destruct (Z.ltb_spec (b - (c - 1)) 0).
    - rewrite !Z.testbit_neg_r by lia. reflexivity.
    - rewrite Ba by lia. f_equal. lia.
  Qed.

  Lemma shr_some z n : 0 <= n < tw -> shr z n = Some (Z.shiftr z n).
  Proof.
    intros H. unfold IntBitCopyModel.shr.
    now replace ((0 <=? n) && (n <? tw)) with true by (symmetry; apply andb_true_intro; split; lia).
  Qed.

  Variable p1 : list Z.
  Hypothesis Hp1 : parts_ok pw1 p1.
  Hypothesis Hlen1 : (1 <= length p1)%nat.
  Notation N := (Z.of_nat (length p1)).
  Let V := pattern_value fs (pw1 * N) (parts_value pw1 p1).
  Let sgn := fs && Z.testbit (nth (length p1 - 1) p1 0) (pw1 - 1).

  Lemma V_bit k : 0 <= k -> Z.testbit V k =
    if k <? pw1 * N then Z.testbit (nth (Z.to_nat (k / pw1)) p1 0) (k mod pw1) else sgn.
  Proof.
    intros Hk. unfold V. assert (1 <= pw1 * N) by nia.
    rewrite pattern_value_bit; [|lia|apply parts_value_range; [lia|assumption]|lia].
    rewrite !parts_value_bit by (assumption || lia).
    destruct (Z.ltb_spec k (pw1 * N)); [reflexivity|].
    unfold sgn. f_equal.
    assert (E : pw1 * N - 1 = (pw1 - 1) + (N - 1) * pw1) by lia.
    assert (Ed : (pw1 * N - 1) / pw1 = N - 1)
      by (rewrite E, Z.div_add, Z.div_small by lia; lia).
    assert (Em : (pw1 * N - 1) mod pw1 = pw1 - 1)
      by (rewrite E, Z.mod_add, Z.mod_small by lia; lia).
    rewrite Ed, Em. do 2 f_equal. lia.
  Qed.

  Lemma V_bit_in i x b : nth_error p1 i = Some x -> 0 <= b < pw1 ->
    Z.testbit V (pw1 * Z.of_nat i + b) = Z.testbit x b.
  Proof.
    intros Hi Hb. assert (Hl : (i < length p1)%nat) by (apply nth_error_Some; congruence).
    rewrite V_bit by nia.
    replace (pw1 * Z.of_nat i + b <? pw1 * N) with true by (symmetry; apply Z.ltb_lt; nia).
    replace (pw1 * Z.of_nat i + b) with (b + Z.of_nat i * pw1) by lia.
    rewrite Z.div_add, Z.mod_add, Z.div_small, Z.mod_small by lia.
    cbn [Z.add]. rewrite Nat2Z.id. now rewrite (nth_error_nth _ _ 0 Hi).
  Qed.

  Lemma V_bit_out k : pw1 * N <= k -> Z.testbit V k = sgn.
  Proof.
    intros Hk. rewrite V_bit by nia.
    now replace (k <? pw1 * N) with false by (symmetry; apply Z.ltb_ge; lia).
  Qed.

  Lemma ext_word_some : exists e, ext_word pw1 pw2 fs p1 = Some e /\
    forall b, 0 <= b < tw -> Z.testbit e b = sgn.
  Proof.
    unfold ext_word, sgn. destruct fs.
    - destruct (nth_error p1 (length p1 - 1)) as [x|] eqn:E.
      2: { apply nth_error_None in E. lia. }
      cbn [obind]. eexists. split; [reflexivity|]. intros b Hb.
      rewrite (nth_error_nth _ _ 0 E). cbn [andb].
      assert (Hx : 0 <= x < 2 ^ pw1).
      { apply nth_error_In in E. unfold parts_ok in Hp1. rewrite Forall_forall in Hp1. auto. }
      unfold IntBitCopyModel.ty. rewrite Z.mod_pow2_bits_low by lia.
      rewrite Z.shiftr_div_pow2 by lia.
      rewrite (Z.testbit_odd x), Z.shiftr_div_pow2 by lia.
      assert (Hs : 2 ^ pw1 = 2 * 2 ^ (pw1 - 1)).
      { rewrite <- Z.pow_succ_r by lia. f_equal. lia. }
      assert (0 < 2 ^ (pw1 - 1)) by (apply Z.pow_pos_nonneg; lia).
      assert (Hq : x / 2 ^ (pw1 - 1) = 0 \/ x / 2 ^ (pw1 - 1) = 1).
      { assert (0 <= x / 2 ^ (pw1 - 1)) by (apply Z.div_pos; lia).
        assert (x / 2 ^ (pw1 - 1) < 2) by (apply Z.div_lt_upper_bound; lia). lia. }
      destruct Hq as [-> | ->].
      + now rewrite Z.mul_0_r, Z.testbit_0_l.
      + change (-1 * 1) with (-1). rewrite Z.bits_m1 by lia. reflexivity.
    - cbn [obind]. eexists. split; [reflexivity|]. intros b Hb.
      unfold IntBitCopyModel.ty. rewrite Z.mul_0_r, Z.mod_0_l, Z.testbit_0_l; [reflexivity|].
      apply Z.pow_nonzero; lia.
  Qed.

  Definition chunk (j : nat) : Z := (V / 2 ^ (pw2 * Z.of_nat j)) mod 2 ^ pw2.
  Definition upto (p2 : list Z) (i : nat) : Prop :=
    forall j, (j < i)%nat -> nth_error p2 j = Some (chunk j).

  Lemma pt2_chunk x j : (forall b, 0 <= b < pw2 -> Z.testbit x b = Z.testbit V (pw2 * Z.of_nat j + b)) ->
    pt2 pw2 x = chunk j.
  Proof. intros H. unfold pt2, chunk. apply chunk_ext; [lia|nia|assumption]. Qed.

  Lemma set_chunk p2 i x : (i < length p2)%nat -> upto p2 i ->
    (forall b, 0 <= b < pw2 -> Z.testbit x b = Z.testbit V (pw2 * Z.of_nat i + b)) ->
    exists p2', set_nth p2 i (pt2 pw2 x) = Some p2' /\ length p2' = length p2 /\ upto p2' (S i).
  Proof.
    intros Hi Hu Hx. destruct (WordWrapProofs2.set_nth_lt p2 i (pt2 pw2 x) Hi) as (p2' & E). pose proof (set_nth_length _ _ _ _ E) as L.
    exists p2'. split; [assumption|]. split; [assumption|]. intros j Hj.
    destruct (Nat.eq_dec j i) as [->|Hne].
    - rewrite (WordWrapProofs2.nth_set_same _ _ _ _ E). f_equal. now apply pt2_chunk.
    - rewrite (WordWrapProofs2.nth_set_other _ _ _ _ _ E) by lia. apply Hu. lia.
  Qed.

  Lemma ext_loop_spec ext : (forall b, 0 <= b < tw -> Z.testbit ext b = sgn) ->
    forall fuel i p2, upto p2 (S i) -> (S i <= length p2)%nat -> (length p2 - i <= fuel)%nat ->
    pw1 * N <= pw2 * Z.of_nat (S i) ->
    exists r, ext_loop pw2 fuel ext i p2 = Some r /\ length r = length p2 /\ upto r (length p2).
  Proof.
    intros He. pose proof tw_bounds. induction fuel as [|fuel IH]; intros i p2 Hu Hi Hf Hb; [lia|].
    cbn [ext_loop]. destruct (Nat.ltb_spec (S i) (length p2)).
    - destruct (set_chunk p2 (S i) ext) as (p2' & E & L & U); [lia|assumption| |].
      { intros b Hbb. rewrite He by lia. rewrite V_bit_out by lia. reflexivity. }
      rewrite E. cbn [obind]. rewrite <- L. apply IH; [assumption|lia|lia|nia].
    - eexists. split; [reflexivity|]. split; [reflexivity|]. replace (length p2) with (S i) by lia. assumption.
  Qed.

  Lemma scatter_spec : pw2 <= pw1 -> forall fuel i1 i2 part_1 offset p2,
    nth_error p1 i1 = Some part_1 -> 0 <= offset < pw1 ->
    pw2 * Z.of_nat i2 = pw1 * Z.of_nat i1 + offset ->
    (i2 < length p2)%nat -> upto p2 i2 -> (length p2 - i2 < fuel)%nat ->
    exists r, scatter_loop pw1 pw2 fs fuel p1 i1 i2 part_1 offset p2 = Some r /\
      length r = length p2 /\ upto r (length p2).
  Proof.
    intros Hle. pose proof tw_bounds as (T1 & T2 & T3).
    induction fuel as [|fuel IH]; intros i1 i2 part_1 offset p2 H1 Ho Hpos Hi2 Hu Hf; [lia|].
    assert (Hi1 : (i1 < length p1)%nat) by (apply nth_error_Some; congruence).
    assert (Hx : 0 <= part_1 < 2 ^ pw1).
    { apply nth_error_In in H1. unfold parts_ok in Hp1. rewrite Forall_forall in Hp1. auto. }
    cbn [scatter_loop]. rewrite shr_some by lia. cbn [obind].
    destruct (Z.ltb_spec offset (pw1 - pw2)).
    - destruct (set_chunk p2 i2 (Z.shiftr part_1 offset)) as (p2' & E & L & U); [assumption|assumption| |].
      { intros b Hb. rewrite Z.shiftr_spec by lia. rewrite Hpos.
        rewrite <- Z.add_assoc. rewrite (V_bit_in _ part_1) by (assumption || lia). f_equal. lia. }
      rewrite E. cbn [obind]. destruct (Nat.ltb_spec (S i2) (length p2')).
      + rewrite <- L. apply IH; try assumption; try lia; try nia.
      + eexists. split; [reflexivity|]. split; [assumption|]. replace (length p2) with (S i2) by lia. assumption.
    - set (o2 := offset - (pw1 - pw2)).
      assert (Ho2 : 0 <= o2 < pw2) by lia.
      destruct (Nat.ltb_spec (S i1) (length p1)) as [Hn|Hn].
      + destruct (nth_error p1 (S i1)) as [q|] eqn:Eq. 2: { apply nth_error_None in Eq. lia. }
        cbn [obind]. destruct (shl2_some q (pw2 - o2)) as (a & r & Ea & Er & Br); [lia|].
        rewrite Ea. cbn [obind]. rewrite Er. cbn [obind].
        destruct (set_chunk p2 i2 (Z.lor (Z.shiftr part_1 offset) r)) as (p2' & E & L & U); [assumption|assumption| |].
        { intros b Hb. rewrite Z.lor_spec, Z.shiftr_spec, Br by lia. rewrite Hpos.
          destruct (Z.ltb_spec b (pw2 - o2)).
          - rewrite (Z.testbit_neg_r q) by lia. rewrite orb_false_r.
            rewrite <- Z.add_assoc. rewrite (V_bit_in _ part_1) by (assumption || lia). f_equal. lia.
          - rewrite (testbit_small part_1 pw1) by (assumption || lia). cbn [orb].
            replace (pw1 * Z.of_nat i1 + offset + b)
              with (pw1 * Z.of_nat (S i1) + (b - (pw2 - o2))) by lia.
            rewrite (V_bit_in _ q) by (assumption || lia). reflexivity. }
        rewrite E. cbn [obind]. destruct (Nat.ltb_spec (S i2) (length p2')).
        * rewrite <- L. apply IH; try assumption; try lia; try nia.
        * eexists. split; [reflexivity|]. split; [assumption|].
          replace (length p2) with (S i2) by lia. assumption.
      + destruct ext_word_some as (e & Ee & Be). rewrite Ee. cbn [obind].
        destruct (shl2_some e (pw2 - o2)) as (a & r & Ea & Er & Br); [lia|].
        rewrite Ea. cbn [obind]. rewrite Er. cbn [obind].
        assert (Hl : pw1 * N = pw1 * Z.of_nat i1 + pw1) by nia.
        destruct (set_chunk p2 i2 (Z.lor (Z.shiftr part_1 offset) r)) as (p2' & E & L & U); [assumption|assumption| |].
        { intros b Hb. rewrite Z.lor_spec, Z.shiftr_spec, Br by lia. rewrite Hpos.
          destruct (Z.ltb_spec b (pw2 - o2)).
          - rewrite (Z.testbit_neg_r e) by lia. rewrite orb_false_r.
            rewrite <- Z.add_assoc. rewrite (V_bit_in _ part_1) by (assumption || lia). f_equal. lia.
          - rewrite (testbit_small part_1 pw1) by (assumption || lia). cbn [orb].
            rewrite Be by lia. rewrite V_bit_out by lia. reflexivity. }
        rewrite E. cbn [obind]. rewrite <- L. apply ext_loop_spec; [assumption|assumption|lia|lia|nia].
  Qed.

  Lemma gather_spec : pw1 < pw2 -> forall fuel i1 i2 part_2 offset p2,
    (i1 < length p1)%nat -> 0 <= offset < pw2 ->
    pw2 * Z.of_nat i2 + offset = pw1 * Z.of_nat i1 ->
    (forall b, 0 <= b < offset -> Z.testbit part_2 b = Z.testbit V (pw2 * Z.of_nat i2 + b)) ->
    (forall b, offset <= b -> Z.testbit part_2 b = false) ->
    (i2 < length p2)%nat -> upto p2 i2 -> (length p1 - i1 < fuel)%nat ->
    exists r, gather_loop pw1 pw2 fs fuel p1 i1 i2 part_2 offset p2 = Some r /\
      length r = length p2 /\ upto r (length p2).
  Proof.
    intros Hlt. pose proof tw_bounds as (T1 & T2 & T3).
    induction fuel as [|fuel IH]; intros i1 i2 part_2 offset p2 Hi1 Ho Hpos Blo Bhi Hi2 Hu Hf; [lia|].
    cbn [gather_loop]. destruct (nth_error p1 i1) as [x|] eqn:H1. 2: { apply nth_error_None in H1. lia. }
    cbn [obind].
    assert (Hx : 0 <= x < 2 ^ pw1).
    { apply nth_error_In in H1. unfold parts_ok in Hp1. rewrite Forall_forall in Hp1. auto. }
    destruct (shl_some x offset) as (a & Ea & Ba); [lia|]. rewrite Ea. cbn [obind].
    (* bits of the updated part_2 *)
    assert (Bn : forall b, 0 <= b < offset + pw1 -> b < tw ->
      Z.testbit (Z.lor part_2 a) b = Z.testbit V (pw2 * Z.of_nat i2 + b)).
    { intros b Hb Hbt. rewrite Z.lor_spec, Ba by lia. destruct (Z.ltb_spec b offset).
      - rewrite (Z.testbit_neg_r x) by lia. rewrite orb_false_r. apply Blo. lia.
      - rewrite Bhi by lia. cbn [orb].
        replace (pw2 * Z.of_nat i2 + b) with (pw1 * Z.of_nat i1 + (b - offset)) by lia.
        rewrite (V_bit_in _ x) by (assumption || lia). reflexivity. }
    (* the common tail *)
    assert (Tail : forall i2' part offset' q2, 0 <= offset' < pw2 ->
      pw2 * Z.of_nat i2' + offset' = pw1 * Z.of_nat (S i1) ->
      (forall b, 0 <= b < offset' -> Z.testbit part b = Z.testbit V (pw2 * Z.of_nat i2' + b)) ->
      (forall b, offset' <= b -> Z.testbit part b = false) ->
      (i2' < length q2)%nat -> upto q2 i2' ->
      exists r, (if (S i1 <? length p1)%nat then gather_loop pw1 pw2 fs fuel p1 (S i1) i2' part offset' q2
        else
          let? ext := ext_word pw1 pw2 fs p1 in
          let? a := shl ext offset' in
          let? parts_2 := set_nth q2 i2' (pt2 pw2 (Z.lor part a)) in
          ext_loop pw2 (S (length parts_2)) ext i2' parts_2) = Some r /\
        length r = length q2 /\ upto r (length q2)).
    { intros i2' part offset' q2 Ho' Hpos' Blo' Bhi' Hi2' Hu'.
      destruct (Nat.ltb_spec (S i1) (length p1)).
      - apply IH; try assumption; try lia.
      - destruct ext_word_some as (e & Ee & Be). rewrite Ee. cbn [obind].
        destruct (shl_some e offset') as (a' & Ea' & Ba'); [lia|]. rewrite Ea'. cbn [obind].
        assert (Hl : pw1 * N = pw1 * Z.of_nat i1 + pw1) by nia.
        destruct (set_chunk q2 i2' (Z.lor part a')) as (q2' & E & L & U); [assumption|assumption| |].
        { intros b Hb. rewrite Z.lor_spec, Ba' by lia. destruct (Z.ltb_spec b offset').
          - rewrite (Z.testbit_neg_r e) by lia. rewrite orb_false_r. apply Blo'. lia.
          - rewrite Bhi' by lia. cbn [orb]. rewrite Be by lia. rewrite V_bit_out by lia. reflexivity. }
        rewrite E. cbn [obind]. rewrite <- L. apply ext_loop_spec; [assumption|assumption|lia|lia|nia]. }
    destruct (Z.ltb_spec offset (pw2 - pw1)).
    - apply Tail; try lia; try assumption.
      + intros b Hb. apply Bn; lia.
      + intros b Hb. destruct (Z.ltb_spec b tw).
        * rewrite Z.lor_spec, Ba, Bhi by lia. cbn [orb]. apply testbit_small with pw1; [assumption|lia].
        * rewrite Z.lor_spec, Bhi by lia. cbn [orb].
          unfold IntBitCopyModel.shl in Ea. destruct ((0 <=? offset) && (offset <? tw)); [|discriminate].
          assert (Er : a = ty (Z.shiftl x offset)) by congruence. rewrite Er.
          unfold IntBitCopyModel.ty. apply Z.mod_pow2_bits_high. lia.
    - destruct (set_chunk p2 i2 (Z.lor part_2 a)) as (p2' & E & L & U); [assumption|assumption| |].
      { intros b Hb. apply Bn; lia. }
      rewrite E. cbn [obind]. destruct (Nat.ltb_spec (S i2) (length p2')).
      + set (o2 := offset - (pw2 - pw1)). assert (Ho2 : 0 <= o2 < pw1) by lia.
        rewrite shr_some by lia. cbn [obind]. rewrite shr_some by lia. cbn [obind].
        rewrite <- L. apply Tail; try lia; try assumption.
        * intros b Hb. rewrite !Z.shiftr_spec by lia.
          replace (pw2 * Z.of_nat (S i2) + b) with (pw1 * Z.of_nat i1 + (b + (pw1 - o2))) by lia.
          rewrite (V_bit_in _ x) by (assumption || lia). f_equal. lia.
        * intros b Hb. rewrite !Z.shiftr_spec by lia. apply testbit_small with pw1; [assumption|lia].
      + eexists. split; [reflexivity|]. split; [assumption|]. replace (length p2) with (S i2) by lia. assumption.
  Qed.

  Theorem int_bit_copy_spec p2 : (1 <= length p2)%nat ->
    exists r, int_bit_copy pw1 pw2 fs p1 p2 = Some r /\ length r = length p2 /\
      parts_ok pw2 r /\ parts_value pw2 r = V mod 2 ^ (pw2 * Z.of_nat (length p2)).
  Proof.
    intros Hlen2. pose proof tw_bounds as (T1 & T2 & T3). unfold int_bit_copy.
    assert (Hu : upto p2 0) by (intros j Hj; lia).
    assert (Main : exists r,
      (if pw2 <=? pw1 then
         let? p := nth_error p1 0 in
         scatter_loop pw1 pw2 fs (S (length p2)) p1 0 0 (ty p) 0 p2
       else gather_loop pw1 pw2 fs (S (length p1)) p1 0 0 0 0 p2) = Some r /\
      length r = length p2 /\ upto r (length p2)).
    { destruct (Z.leb_spec pw2 pw1).
      - destruct (nth_error p1 0) as [p|] eqn:E. 2: { apply nth_error_None in E. lia. }
        cbn [obind].
        assert (Hx : 0 <= p < 2 ^ pw1).
        { apply nth_error_In in E. unfold parts_ok in Hp1. rewrite Forall_forall in Hp1. auto. }
        assert (2 ^ pw1 <= 2 ^ tw) by (apply Z.pow_le_mono_r; lia).
        unfold IntBitCopyModel.ty. rewrite Z.mod_small by lia.
        apply scatter_spec; try assumption; try lia.
      - apply gather_spec; try assumption; try lia.
        intros b _. apply Z.testbit_0_l. }
    destruct Main as (r & E & L & U). exists r. split; [assumption|]. split; [assumption|].
    rewrite <- L. apply parts_value_chunks; [assumption|]. intros j Hj. apply U. lia.
  Qed.
End BitCopy.
