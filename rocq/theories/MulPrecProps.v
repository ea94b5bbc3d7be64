(* Properties C11 and C12: multiple-precision integers (mul_prec_int.hpp). *)
From Coq Require Import ZArith Lia Bool List ZifyBool.
From Verif Require Import CInt IntModel IntProofs ArrLib MulPrecModel MulPrecSpec MulPrecProofs MulPrecProofs2
  MulPrecProofs3 MulPrecProofs4 MulPrecProofs5.
Import ListNotations.
Open Scope Z_scope.

(* the hypotheses of the theorems below, for concrete operands *)
Definition parts_okb (pw : Z) (N : nat) (x : list Z) : bool :=
  (length x =? N)%nat && forallb (fun d => (0 <=? d) && (d <? 2 ^ pw)) x.

Lemma parts_okb_ok pw N x : parts_okb pw N x = true -> parts_ok pw N x.
Proof.
  unfold parts_okb, parts_ok, digits. rewrite andb_true_iff, forallb_forall, Forall_forall.
  intros [H1 H2]. split; [lia|]. intros d Hd. specialize (H2 d Hd). lia.
Qed.

Ltac concrete := first
  [ apply parts_okb_ok; vm_compute; reflexivity
  | split; [lia | exists 1; reflexivity] | split; [lia | exists 2; reflexivity]
  | split; [lia | exists 4; reflexivity] | split; [lia | exists 16; reflexivity]
  | split; [lia | exists 32; reflexivity] | lia | discriminate | reflexivity ].

Section S.
  Variables (pw : Z) (N : nat) (sg : bool).
  Hypothesis Hpw : part_width_ok pw.
  Hypothesis HN : (1 <= N)%nat.

  Notation W := (Z.of_nat N * pw).
  Notation T := (big_type pw N sg).
  Notation V := (value pw sg).

  Lemma half : exists h, 1 <= h /\ pw = 2 * h.
  Proof. destruct Hpw as [H [h Hh]]. exists h. lia. Qed.

  Ltac half h Hh H2 := destruct half as (h & Hh & H2).

  (* a representation is determined by its value, and its value is one of the type *)
  Theorem mulprec_value_bijection x y : parts_ok pw N x -> parts_ok pw N y ->
    in_range T (V x) /\ (V x = V y <-> x = y).
  Proof.
    intros Hx Hy. half h Hh H2. split; [exact (value_range pw h N Hh H2 HN sg x Hx)|].
    split; [exact (value_inj pw h N Hh H2 HN sg x y Hx Hy)|]. now intros ->.
  Qed.

  Theorem mulprec_add_exact x y : parts_ok pw N x -> parts_ok pw N y ->
    exists z, add pw N x y = Some z /\ parts_ok pw N z /\ V z = wrap T (V x + V y).
  Proof.
    intros Hx Hy. half h Hh H2. destruct (add_ok pw h N Hh H2 HN x y Hx Hy) as (z & E & Hz & U).
    exists z. split; [assumption|]. split; [assumption|].
    destruct (value_cong pw h N Hh H2 HN sg x Hx) as [k1 E1].
    destruct (value_cong pw h N Hh H2 HN sg y Hy) as [k2 E2].
    pose proof (pow_pos2 W ltac:(nia)) as HP. rewrite Z.mod_eq in U by lia.
    apply (value_wrap pw h N Hh H2 HN sg z _ (- ((uvalue pw x + uvalue pw y) / 2 ^ W) - k1 - k2) Hz).
    rewrite U, E1, E2. ring.
  Qed.

  Theorem mulprec_sub_exact x y : parts_ok pw N x -> parts_ok pw N y ->
    exists z, sub pw N x y = Some z /\ parts_ok pw N z /\ V z = wrap T (V x - V y).
  Proof.
    intros Hx Hy. half h Hh H2. destruct (sub_ok pw h N Hh H2 HN x y Hx Hy) as (z & E & Hz & U).
    exists z. split; [assumption|]. split; [assumption|].
    destruct (value_cong pw h N Hh H2 HN sg x Hx) as [k1 E1].
    destruct (value_cong pw h N Hh H2 HN sg y Hy) as [k2 E2].
    pose proof (pow_pos2 W ltac:(nia)) as HP. rewrite Z.mod_eq in U by lia.
    apply (value_wrap pw h N Hh H2 HN sg z _ (- ((uvalue pw x - uvalue pw y) / 2 ^ W) - k1 + k2) Hz).
    rewrite U, E1, E2. ring.
  Qed.

  Theorem mulprec_mul_exact x y : parts_ok pw N x -> parts_ok pw N y ->
    exists z, mul pw N x y = Some z /\ parts_ok pw N z /\ V z = wrap T (V x * V y).
  Proof.
    intros Hx Hy. half h Hh H2. destruct (mul_ok pw h N Hh H2 HN x y Hx Hy) as (z & E & Hz & U).
    exists z. split; [assumption|]. split; [assumption|].
    destruct (value_cong pw h N Hh H2 HN sg x Hx) as [k1 E1].
    destruct (value_cong pw h N Hh H2 HN sg y Hy) as [k2 E2].
    pose proof (pow_pos2 W ltac:(nia)) as HP. rewrite Z.mod_eq in U by lia.
    apply (value_wrap pw h N Hh H2 HN sg z _ (- ((uvalue pw x * uvalue pw y) / 2 ^ W)
      - k1 * uvalue pw y - k2 * uvalue pw x - k1 * k2 * 2 ^ W) Hz).
    rewrite U, E1, E2. ring.
  Qed.

  Theorem mulprec_neg_exact x : parts_ok pw N x ->
    exists z, neg pw N x = Some z /\ parts_ok pw N z /\ V z = wrap T (- V x).
  Proof.
    intros Hx. half h Hh H2. destruct (neg_ok pw h N Hh H2 HN x Hx) as (z & E & Hz & U).
    exists z. split; [assumption|]. split; [assumption|].
    destruct (value_cong pw h N Hh H2 HN sg x Hx) as [k1 E1].
    pose proof (pow_pos2 W ltac:(nia)) as HP. rewrite Z.mod_eq in U by lia.
    apply (value_wrap pw h N Hh H2 HN sg z _ (- ((- uvalue pw x) / 2 ^ W) + k1) Hz).
    rewrite U, E1. ring.
  Qed.

  Theorem mulprec_compl_exact x : parts_ok pw N x ->
    exists z, compl pw N x = Some z /\ parts_ok pw N z /\ V z = wrap T (Z.lnot (V x)).
  Proof.
    intros Hx. half h Hh H2. destruct (compl_ok pw h N Hh H2 HN x Hx) as (z & E & Hz & U).
    exists z. split; [assumption|]. split; [assumption|].
    destruct (value_cong pw h N Hh H2 HN sg x Hx) as [k1 E1].
    apply (value_wrap pw h N Hh H2 HN sg z _ (1 + k1) Hz).
    rewrite U, E1. unfold Z.lnot. rewrite <- Z.sub_1_r. ring.
  Qed.

  Lemma bitop_mod f g a b w k1 k2 : bitop f g -> 0 <= w -> exists k,
    f a b = f (a + k1 * 2 ^ w) (b + k2 * 2 ^ w) + k * 2 ^ w.
  Proof.
    intros (_ & Hb & _) Hw. pose proof (pow_pos2 w Hw) as HP.
    assert (E : f a b mod 2 ^ w = f (a + k1 * 2 ^ w) (b + k2 * 2 ^ w) mod 2 ^ w).
    { apply Z.bits_inj'. intros i Hi. destruct (Z.lt_ge_cases i w).
      - rewrite !Z.mod_pow2_bits_low by lia. rewrite !Hb by lia.
        rewrite <- (Z.mod_pow2_bits_low a w), <- (Z.mod_pow2_bits_low b w) by lia.
        rewrite <- (Z.mod_pow2_bits_low (a + k1 * 2 ^ w) w), <- (Z.mod_pow2_bits_low (b + k2 * 2 ^ w) w) by lia.
        now rewrite !Z.mod_add by lia.
      - now rewrite !Z.mod_pow2_bits_high by lia. }
    exists (f a b / 2 ^ w - f (a + k1 * 2 ^ w) (b + k2 * 2 ^ w) / 2 ^ w).
    rewrite (Z.div_mod (f a b) (2 ^ w)) at 1 by lia.
    rewrite (Z.div_mod (f (a + k1 * 2 ^ w) (b + k2 * 2 ^ w)) (2 ^ w)) at 1 by lia.
    rewrite E. ring.
  Qed.

  Lemma bitwise_value f g x y : bitop f g -> f 0 0 = 0 -> parts_ok pw N x -> parts_ok pw N y ->
    exists z, bitwise pw N f x y = Some z /\ parts_ok pw N z /\ V z = wrap T (f (V x) (V y)).
  Proof.
    intros Hf H0 Hx Hy. half h Hh H2.
    destruct (bitwise_ok pw h N Hh H2 HN f g x y Hf H0 Hx Hy) as (z & E & Hz & U).
    exists z. split; [assumption|]. split; [assumption|].
    destruct (value_cong pw h N Hh H2 HN sg x Hx) as [k1 E1].
    destruct (value_cong pw h N Hh H2 HN sg y Hy) as [k2 E2].
    destruct (bitop_mod f g (uvalue pw x) (uvalue pw y) W k1 k2 Hf ltac:(nia)) as [k Ek].
    rewrite <- E1, <- E2 in Ek.
    apply (value_wrap pw h N Hh H2 HN sg z _ k Hz). lia.
  Qed.

  Theorem mulprec_bitwise_exact x y : parts_ok pw N x -> parts_ok pw N y ->
    (exists z, band pw N x y = Some z /\ parts_ok pw N z /\ V z = wrap T (Z.land (V x) (V y))) /\
    (exists z, bor pw N x y = Some z /\ parts_ok pw N z /\ V z = wrap T (Z.lor (V x) (V y))) /\
    (exists z, bxor pw N x y = Some z /\ parts_ok pw N z /\ V z = wrap T (Z.lxor (V x) (V y))).
  Proof.
    intros Hx Hy. split; [|split].
    - exact (bitwise_value Z.land andb x y (bitop_land N HN) eq_refl Hx Hy).
    - exact (bitwise_value Z.lor orb x y (bitop_lor N HN) eq_refl Hx Hy).
    - exact (bitwise_value Z.lxor xorb x y (bitop_lxor N HN) eq_refl Hx Hy).
  Qed.

  Theorem mulprec_compare_exact x y : parts_ok pw N x -> parts_ok pw N y ->
    equal N x y = Some (V x =? V y) /\ not_equal N x y = Some (negb (V x =? V y)) /\
    less pw N sg x y = Some (V x <? V y) /\ greater pw N sg x y = Some (V x >? V y) /\
    less_equal pw N sg x y = Some (V x <=? V y) /\ greater_equal pw N sg x y = Some (V x >=? V y).
  Proof.
    intros Hx Hy. half h Hh H2.
    assert (E : equal N x y = Some (V x =? V y)).
    { rewrite (equal_ok pw h N Hh H2 HN x y Hx Hy). f_equal.
      destruct (Z.eqb_spec (V x) (V y)) as [Ev|Ev].
      - apply (value_inj pw h N Hh H2 HN sg x y Hx Hy) in Ev. subst. apply Z.eqb_refl.
      - apply Z.eqb_neq. intros Eu. apply Ev. f_equal. destruct Hx as [Lx Dx], Hy as [Ly Dy].
        apply (val_inj (2 ^ pw)); try assumption; [|congruence]. pose proof (M2 pw h Hh H2). lia. }
    pose proof (less_ok pw h N Hh H2 HN sg x y Hx Hy) as L1.
    pose proof (less_ok pw h N Hh H2 HN sg y x Hy Hx) as L2.
    unfold not_equal, less_equal, greater, greater_equal. rewrite E, ?L1, ?L2. cbn [obind].
    repeat split; try reflexivity; f_equal; lia.
  Qed.

  (* operator<< and operator>> for the shift counts allowed by the integer concept *)
  Theorem mulprec_shift_exact x n : parts_ok pw N x -> 0 <= n < W ->
    (exists z, shift_left pw N x n = Some z /\ parts_ok pw N z /\ V z = wrap T (V x * 2 ^ n)) /\
    (exists z, shift_right pw N x n = Some z /\ parts_ok pw N z /\ uvalue pw z = uvalue pw x / 2 ^ n /\
       (0 <= V x -> V z = V x / 2 ^ n)).
  Proof.
    intros Hx Hn. half h Hh H2. pose proof (pow_pos2 n ltac:(lia)) as Pn.
    pose proof (pow_pos2 W ltac:(nia)) as HP. split.
    - destruct (shift_left_ok pw h N Hh H2 HN x n Hx ltac:(lia)) as (z & E & Hz & U).
      exists z. split; [assumption|]. split; [assumption|].
      destruct (value_cong pw h N Hh H2 HN sg x Hx) as [k1 E1].
      rewrite (Z.mod_small n W) in U by lia. rewrite Z.mod_eq in U by lia.
      apply (value_wrap pw h N Hh H2 HN sg z _ (- (uvalue pw x * 2 ^ n / 2 ^ W) - k1 * 2 ^ n) Hz).
      rewrite U, E1. ring.
    - destruct (shift_right_ok pw h N Hh H2 HN x n Hx ltac:(lia)) as (z & E & Hz & U).
      rewrite (Z.mod_small n W) in U by lia.
      exists z. split; [assumption|]. split; [assumption|]. split; [assumption|]. intros Hp.
      pose proof (uvalue_range pw h N Hh H2 HN x Hx) as Rx.
      assert (Ux : uvalue pw x = V x).
      { destruct (value_cases pw h N Hh H2 HN sg x Hx) as [[_ Ez]|[(_ & _ & Ez)|(_ & Hzr & Ez)]]; lia. }
      rewrite (value_wrap pw h N Hh H2 HN sg z (V x / 2 ^ n) 0 Hz) by (rewrite U, Ux; lia).
      apply wrap_id; [exact (big_ok pw h N Hh H2 HN sg)|].
      pose proof (value_range pw h N Hh H2 HN sg x Hx) as R. unfold in_range in *.
      assert (0 <= V x / 2 ^ n) by (apply Z.div_pos; lia).
      assert (V x / 2 ^ n <= V x) by (apply Z.div_le_upper_bound; nia).
      assert (imin T <= 0).
      { unfold imin, big_type. cbn [isigned iwidth]. destruct sg; [|lia].
        pose proof (pow_pos2 (W - 1) ltac:(lia)). lia. }
      lia.
  Qed.

  Theorem mulprec_find_msb_pos_exact x : parts_ok pw N x ->
    find_msb_pos pw N x = Some (if uvalue pw x =? 0 then -1 else Z.log2 (uvalue pw x)).
  Proof. intros Hx. half h Hh H2. exact (find_msb_ok pw h N Hh H2 HN x Hx). Qed.

  Theorem mulprec_limits_exact :
    (exists z, min pw N sg = Some z /\ parts_ok pw N z /\ V z = imin T) /\
    (exists z, max pw N sg = Some z /\ parts_ok pw N z /\ V z = imax T).
  Proof.
    half h Hh H2. split; [exact (min_ok pw h N Hh H2 HN sg)|exact (max_ok pw h N Hh H2 HN sg)].
  Qed.

  Theorem mulprec_divmod_exact x y : parts_ok pw N x -> parts_ok pw N y -> V y <> 0 ->
    exists q r, divmod pw N sg x y = Some (q, r) /\ parts_ok pw N q /\ parts_ok pw N r /\
      V q = wrap T (Z.quot (V x) (V y)) /\ V r = Z.rem (V x) (V y).
  Proof. intros Hx Hy H0. half h Hh H2. exact (divmod_ok pw h N Hh H2 HN sg x y Hx Hy H0). Qed.

  (* the quotient wraps in one case only *)
  Theorem mulprec_div_exact x y : parts_ok pw N x -> parts_ok pw N y -> V y <> 0 ->
    ~ (V x = imin T /\ V y = -1) ->
    (exists q, div pw N sg x y = Some q /\ parts_ok pw N q /\ V q = Z.quot (V x) (V y)) /\
    (exists r, rem pw N sg x y = Some r /\ parts_ok pw N r /\ V r = Z.rem (V x) (V y)).
  Proof.
    intros Hx Hy H0 Hov. half h Hh H2.
    destruct (divmod_ok pw h N Hh H2 HN sg x y Hx Hy H0) as (q & r & E & Hq & Hr & Eq & Er).
    unfold div, rem. rewrite E. cbn [obind]. split; [|exists r; auto].
    exists q. split; [reflexivity|]. split; [assumption|]. rewrite Eq.
    apply wrap_id; [exact (big_ok pw h N Hh H2 HN sg)|].
    pose proof (value_range pw h N Hh H2 HN sg x Hx) as Rx.
    pose proof (value_range pw h N Hh H2 HN sg y Hy) as Ry.
    pose proof (Z.quot_rem' (V x) (V y)) as QR.
    assert (HA : Z.abs (Z.quot (V x) (V y)) * Z.abs (V y) <= Z.abs (V x)).
    { rewrite <- Z.quot_abs by assumption.
      pose proof (Z.mul_quot_le (Z.abs (V x)) (Z.abs (V y)) ltac:(lia) ltac:(lia)). lia. }
    unfold in_range, imin, imax, big_type in *. cbn [isigned iwidth] in *.
    set (Q := Z.quot (V x) (V y)) in *. destruct sg.
    - destruct (Z.eq_dec (Z.abs (value pw true y)) 1) as [E1|E1]; [|nia].
      assert (value pw true y = 1 \/ value pw true y = -1) as [Ey|Ey] by lia.
      + unfold Q. rewrite Ey, Z.quot_1_r. lia.
      + unfold Q. rewrite Ey. change (-1) with (- (1)). rewrite Z.quot_opp_r, Z.quot_1_r by lia. lia.
    - assert (0 <= Q) by (apply Z.quot_pos; lia). nia.
  Qed.

  (* dividing by zero divides one built-in integer by zero, which is undefined *)
  Theorem mulprec_divmod_zero x y : parts_ok pw N x -> parts_ok pw N y -> V y = 0 ->
    divmod pw N sg x y = None.
  Proof. intros Hx Hy H0. half h Hh H2. exact (divmod_zero pw h N Hh H2 HN sg x y Hx Hy H0). Qed.
End S.

(* -------------------------------------------------------------------- *)
(* concrete instances: two 32-bit parts *)

Definition ex_x : list Z := [0; 2147450880]. (* 0x7fff800000000000 *)
Definition ex_y : list Z := [1; 32768].      (* 0x800000000001 *)
Definition ex_m : list Z := [4294967295; 4294967295]. (* all ones *)
Definition ex_min : list Z := [0; 2147483648].

Lemma ex_x_ok : parts_ok 32 2 ex_x. Proof. concrete. Qed.
Lemma ex_y_ok : parts_ok 32 2 ex_y. Proof. concrete. Qed.
Lemma ex_m_ok : parts_ok 32 2 ex_m. Proof. concrete. Qed.
Lemma ex_min_ok : parts_ok 32 2 ex_min. Proof. concrete. Qed.
Lemma ex_w : part_width_ok 32. Proof. concrete. Qed.
Lemma ex_2 : (1 <= 2)%nat. Proof. lia. Qed.

Example mulprec_value_bijection_ex : value 32 true ex_m = -1 /\ value 32 false ex_m = 2 ^ 64 - 1 /\
  in_range (big_type 32 2 true) (value 32 true ex_m).
Proof.
  split; [reflexivity|]. split; [reflexivity|].
  exact (proj1 (mulprec_value_bijection 32 2 true ex_w ex_2 ex_m ex_m ex_m_ok ex_m_ok)).
Qed.

(* a carry out of every part *)
Example mulprec_add_exact_ex : add 32 2 ex_m [1; 0] = Some [0; 0] /\
  exists z, add 32 2 ex_m ex_x = Some z /\ parts_ok 32 2 z /\
    value 32 true z = wrap (big_type 32 2 true) (value 32 true ex_m + value 32 true ex_x).
Proof.
  split; [reflexivity|]. exact (mulprec_add_exact 32 2 true ex_w ex_2 ex_m ex_x ex_m_ok ex_x_ok).
Qed.

Example mulprec_sub_exact_ex : sub 32 2 [0; 0] [1; 0] = Some ex_m /\
  exists z, sub 32 2 ex_min ex_x = Some z /\ parts_ok 32 2 z /\
    value 32 true z = wrap (big_type 32 2 true) (value 32 true ex_min - value 32 true ex_x).
Proof.
  split; [reflexivity|]. exact (mulprec_sub_exact 32 2 true ex_w ex_2 ex_min ex_x ex_min_ok ex_x_ok).
Qed.

Example mulprec_mul_exact_ex : mul 32 2 ex_m ex_m = Some [1; 0] /\
  exists z, mul 32 2 ex_x ex_y = Some z /\ parts_ok 32 2 z /\
    value 32 true z = wrap (big_type 32 2 true) (value 32 true ex_x * value 32 true ex_y).
Proof.
  split; [reflexivity|]. exact (mulprec_mul_exact 32 2 true ex_w ex_2 ex_x ex_y ex_x_ok ex_y_ok).
Qed.

Example mulprec_neg_exact_ex : neg 32 2 ex_y = Some [4294967295; 4294934527] /\
  exists z, neg 32 2 ex_min = Some z /\ parts_ok 32 2 z /\
    value 32 true z = wrap (big_type 32 2 true) (- value 32 true ex_min).
Proof. split; [reflexivity|]. exact (mulprec_neg_exact 32 2 true ex_w ex_2 ex_min ex_min_ok). Qed.

Example mulprec_compl_exact_ex : compl 32 2 ex_y = Some [4294967294; 4294934527] /\
  exists z, compl 32 2 ex_y = Some z /\ parts_ok 32 2 z /\
    value 32 true z = wrap (big_type 32 2 true) (Z.lnot (value 32 true ex_y)).
Proof. split; [reflexivity|]. exact (mulprec_compl_exact 32 2 true ex_w ex_2 ex_y ex_y_ok). Qed.

Example mulprec_bitwise_exact_ex : band 32 2 ex_m ex_y = Some ex_y /\
  exists z, bxor 32 2 ex_min ex_y = Some z /\ parts_ok 32 2 z /\
    value 32 true z = wrap (big_type 32 2 true) (Z.lxor (value 32 true ex_min) (value 32 true ex_y)).
Proof.
  split; [reflexivity|].
  exact (proj2 (proj2 (mulprec_bitwise_exact 32 2 true ex_w ex_2 ex_min ex_y ex_min_ok ex_y_ok))).
Qed.

(* the same representations order differently as signed and as unsigned *)
Example mulprec_compare_exact_ex :
  less 32 2 true ex_m ex_y = Some true /\ less 32 2 false ex_m ex_y = Some false /\
  less 32 2 true ex_m ex_y = Some (value 32 true ex_m <? value 32 true ex_y).
Proof.
  split; [reflexivity|]. split; [reflexivity|].
  exact (proj1 (proj2 (proj2 (mulprec_compare_exact 32 2 true ex_w ex_2 ex_m ex_y ex_m_ok ex_y_ok)))).
Qed.

Example mulprec_shift_exact_ex :
  shift_left 32 2 ex_y 33 = Some [0; 2] /\ shift_right 32 2 ex_x 47 = Some [65535; 0] /\
  exists z, shift_left 32 2 ex_y 33 = Some z /\ parts_ok 32 2 z /\
    value 32 true z = wrap (big_type 32 2 true) (value 32 true ex_y * 2 ^ 33).
Proof.
  split; [reflexivity|]. split; [reflexivity|].
  exact (proj1 (mulprec_shift_exact 32 2 true ex_w ex_2 ex_y 33 ex_y_ok ltac:(lia))).
Qed.

(* the right shift of a negative value brings in zeros *)
Example mulprec_shift_right_negative :
  exists z, shift_right 32 2 ex_min 63 = Some z /\ value 32 true z = 1 /\ value 32 true ex_min / 2 ^ 63 = -1.
Proof. exists [1; 0]. vm_compute. auto. Qed.

Example mulprec_find_msb_pos_exact_ex : find_msb_pos 32 2 ex_y = Some 47 /\
  find_msb_pos 32 2 ex_y = Some (if uvalue 32 ex_y =? 0 then -1 else Z.log2 (uvalue 32 ex_y)).
Proof. split; [reflexivity|]. exact (mulprec_find_msb_pos_exact 32 2 ex_w ex_2 ex_y ex_y_ok). Qed.

Example mulprec_limits_exact_ex : min 32 2 true = Some ex_min /\
  exists z, max 32 2 true = Some z /\ parts_ok 32 2 z /\ value 32 true z = imax (big_type 32 2 true).
Proof. split; [reflexivity|]. exact (proj2 (mulprec_limits_exact 32 2 true ex_w ex_2)). Qed.

(* operands that reach the correction ("add back") step of the long division *)
Example mulprec_divmod_exact_ex : divmod 32 2 true ex_x ex_y = Some ([65534; 0], [4294901762; 32767]) /\
  exists q r, divmod 32 2 true ex_x ex_y = Some (q, r) /\ parts_ok 32 2 q /\ parts_ok 32 2 r /\
    value 32 true q = wrap (big_type 32 2 true) (Z.quot (value 32 true ex_x) (value 32 true ex_y)) /\
    value 32 true r = Z.rem (value 32 true ex_x) (value 32 true ex_y).
Proof.
  split; [vm_compute; reflexivity|].
  apply (mulprec_divmod_exact 32 2 true ex_w ex_2 ex_x ex_y ex_x_ok ex_y_ok). vm_compute. discriminate.
Qed.

(* the overflowing quotient: the least value divided by minus one is itself *)
Example mulprec_divmod_overflow_ex : divmod 32 2 true ex_min ex_m = Some (ex_min, [0; 0]).
Proof. vm_compute. reflexivity. Qed.

Example mulprec_div_exact_ex :
  (exists q, div 32 2 true ex_min ex_y = Some q /\ parts_ok 32 2 q /\
     value 32 true q = Z.quot (value 32 true ex_min) (value 32 true ex_y)) /\
  Z.quot (value 32 true ex_min) (value 32 true ex_y) = -65535 /\
  Z.rem (value 32 true ex_min) (value 32 true ex_y) = -140737488289793.
Proof.
  split; [|vm_compute; auto].
  apply (mulprec_div_exact 32 2 true ex_w ex_2 ex_min ex_y ex_min_ok ex_y_ok).
  - vm_compute. discriminate.
  - intros [_ H]. vm_compute in H. discriminate.
Qed.

Example mulprec_divmod_zero_ex : divmod 32 2 true ex_x [0; 0] = None.
Proof.
  apply (mulprec_divmod_zero 32 2 true ex_w ex_2 ex_x [0; 0] ex_x_ok); [concrete|reflexivity].
Qed.

Print Assumptions mulprec_value_bijection.
Print Assumptions mulprec_add_exact.
Print Assumptions mulprec_sub_exact.
Print Assumptions mulprec_mul_exact.
Print Assumptions mulprec_neg_exact.
Print Assumptions mulprec_compl_exact.
Print Assumptions mulprec_bitwise_exact.
Print Assumptions mulprec_compare_exact.
Print Assumptions mulprec_shift_exact.
Print Assumptions mulprec_find_msb_pos_exact.
Print Assumptions mulprec_limits_exact.
Print Assumptions mulprec_divmod_exact.
Print Assumptions mulprec_div_exact.
Print Assumptions mulprec_divmod_zero.
