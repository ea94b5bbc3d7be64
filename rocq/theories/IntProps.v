(* Theorems for the integer properties C01-C08.  Types are arbitrary
   fixed-width integer types (any width >= 1, resp. >= 2 when signed). *)
From Coq Require Import ZArith Lia Bool List ZifyBool.
From Verif Require Import CInt IntModel IntSpec IntProofs IntProofs2 IntProofs3 IntProofs4.
Import ListNotations.
Open Scope Z_scope.

Definition i8 := ITy 8 true.
Definition u8 := ITy 8 false.
Definition i16 := ITy 16 true.
Definition u16 := ITy 16 false.
Definition i32 := ITy 32 true.
Definition u32 := ITy 32 false.
Definition i64 := ITy 64 true.
Definition u64 := ITy 64 false.

Local Ltac rep := rewrite representable_in_range in *.

(* ---- C01: checked addition, subtraction, multiplication ---- *)

Theorem checked_add_exact : forall L R l r, ity_ok L -> ity_ok R ->
  representable L l -> representable R r ->
  checked_outcome L l (l + r) (try_int_add L R l r).
Proof. intros. rep. rewrite try_int_add_spec by assumption. apply add_res_checked. Qed.

Theorem checked_sub_exact : forall L R l r, ity_ok L -> ity_ok R ->
  representable L l -> representable R r ->
  checked_outcome L l (l - r) (try_int_sub L R l r).
Proof. intros. rep. rewrite try_int_sub_spec by assumption. apply add_res_checked. Qed.

Theorem checked_mul_exact : forall L R l r, ity_ok L -> ity_ok R ->
  representable L l -> representable R r ->
  checked_outcome L l (l * r) (try_int_mul L R l r).
Proof. intros. rep. rewrite try_int_mul_spec by assumption. apply add_res_checked. Qed.

Example checked_ex_hyps : ity_ok i8 /\ ity_ok u32 /\ representable i8 (-100) /\ representable u32 227.
Proof. cbv. intuition discriminate. Qed.
Example checked_add_ex1 : try_int_add i8 u32 (-100) 227 = Some (true, 127).
Proof. vm_compute. reflexivity. Qed.
Example checked_add_ex2 : try_int_add i8 u32 (-100) 228 = Some (false, -100).
Proof. vm_compute. reflexivity. Qed.
Example checked_sub_ex : try_int_sub u64 i64 0 (-(2^63)) = Some (true, 2 ^ 63).
Proof. vm_compute. reflexivity. Qed.
Example checked_mul_ex1 : try_int_mul i64 i64 (-(2^62)) 2 = Some (true, -(2^63)).
Proof. vm_compute. reflexivity. Qed.
Example checked_mul_ex2 : try_int_mul i64 i64 (-(2^63)) (-1) = Some (false, -(2^63)).
Proof. vm_compute. reflexivity. Qed.

(* ---- C02: mixed-type comparison ---- *)

Theorem mixed_comparison_exact : forall A B a b, ity_ok A -> ity_ok B ->
  representable A a -> representable B b ->
  (int_equal A B a b = true <-> a = b) /\
  (int_not_equal A B a b = true <-> a <> b) /\
  (int_less A B a b = true <-> a < b) /\
  (int_less_equal A B a b = true <-> a <= b) /\
  (int_greater A B a b = true <-> a > b) /\
  (int_greater_equal A B a b = true <-> a >= b).
Proof.
  intros. rep. unfold int_not_equal, int_less_equal, int_greater, int_greater_equal.
  rewrite int_equal_spec, !int_less_spec by assumption.
  split; [|split; [|split; [|split; [|split]]]]; lia.
Qed.

Example mixed_comparison_ex :
  int_less i32 u32 (-1) 0 = true /\ int_less u32 i32 0 (-1) = false /\
  int_equal i64 u64 (-1) (2 ^ 64 - 1) = false.
Proof. vm_compute. auto. Qed.

(* ---- C03: casts ---- *)

Theorem checked_cast_exact : forall T F v old, ity_ok T -> ity_ok F -> representable F v ->
  checked_outcome T old v (Some (try_int_cast T F v old)) /\
  (can_int_cast T F v = true <-> representable T v).
Proof.
  intros. rep. rewrite try_int_cast_spec, can_int_cast_spec, in_rangeb_spec by assumption.
  split; [|reflexivity]. unfold checked_outcome. rewrite !representable_in_range.
  destruct (in_rangeb T v) eqn:E.
  - left. split; [now apply in_rangeb_spec|reflexivity].
  - right. split; [now apply in_rangeb_false|reflexivity].
Qed.

(* the clamped value is representable and no representable value is closer *)
Theorem clamped_cast_nearest : forall T F v, ity_ok T -> ity_ok F -> representable F v ->
  representable T (int_cast_clamp_d T F v) /\
  (forall x, representable T x -> Z.abs (int_cast_clamp_d T F v - v) <= Z.abs (x - v)) /\
  (representable T v -> int_cast_clamp_d T F v = v).
Proof.
  intros T F v HT HF Hv. rep. unfold int_cast_clamp_d.
  rewrite int_cast_clamp_spec; try assumption; try (now apply imin_range); try (now apply imax_range).
  pose proof (imin_range T HT). 
  split; [|split].
  - unfold in_range in *. lia.
  - intros x Hx. rewrite representable_in_range in Hx. unfold in_range in *. lia.
  - rewrite representable_in_range. unfold in_range in *. lia.
Qed.

(* with explicit bounds *)
Theorem clamped_cast_bounds : forall T F v mn mx, ity_ok T -> ity_ok F -> representable F v ->
  representable T mn -> representable T mx -> mn <= mx ->
  mn <= int_cast_clamp T F v mn mx <= mx /\
  (forall x, mn <= x <= mx -> Z.abs (int_cast_clamp T F v mn mx - v) <= Z.abs (x - v)).
Proof.
  intros. rep. rewrite int_cast_clamp_spec by assumption. split; [lia|]. intros. lia.
Qed.

Example cast_ex : try_int_cast u8 i32 255 7 = (true, 255) /\ try_int_cast u8 i32 256 7 = (false, 7)
  /\ int_cast_clamp_d i8 u64 (2 ^ 64 - 1) = 127 /\ int_cast_clamp_d u8 i16 (-5) = 0.
Proof. vm_compute. auto. Qed.

(* ---- C04: power and arithmetic left shift ---- *)

Theorem checked_pow_exact : forall L R l r, ity_ok L -> ity_ok R ->
  representable L l -> representable R r -> 0 <= r ->
  checked_outcome L l (l ^ r) (try_int_pow L R l r).
Proof. intros. rep. rewrite try_int_pow_nonneg by assumption. apply add_res_checked. Qed.

(* negative exponents: 0 is rejected, otherwise the truncated quotient 1 / l^-r *)
Theorem checked_pow_negative_exponent : forall L R l r, ity_ok L -> ity_ok R ->
  representable L l -> representable R r -> r < 0 ->
  (l = 0 -> try_int_pow L R l r = Some (false, 0)) /\
  (l <> 0 -> checked_outcome L l (Z.quot 1 (l ^ (- r))) (try_int_pow L R l r)).
Proof.
  intros. rep. rewrite try_int_pow_neg by assumption. split.
  - intros ->. reflexivity.
  - intros Hl. replace (l =? 0) with false by lia. apply add_res_checked.
Qed.

Theorem checked_shift_left_exact : forall T l i, ity_ok T ->
  representable T l -> 0 <= l -> 0 <= i ->
  checked_outcome T l (l * 2 ^ i) (try_int_arith_shift_left T l i).
Proof. intros. rep. rewrite try_int_arith_shift_left_spec by assumption. apply add_res_checked. Qed.

Example pow_ex : try_int_pow i8 u64 (-2) 7 = Some (true, -128) /\
  try_int_pow i8 u64 2 7 = Some (false, 2) /\ try_int_pow i64 u8 (-1) 255 = Some (true, -1) /\
  try_int_pow i32 i8 3 (-2) = Some (true, 0) /\
  try_int_arith_shift_left i8 63 1 = Some (true, 126) /\ try_int_arith_shift_left i8 64 1 = Some (false, 64).
Proof. vm_compute. auto 10. Qed.

(* ---- C05: integer square root ---- *)

Theorem int_sqrt_floor : forall T v, ity_ok T -> representable T v -> 0 <= v ->
  exists r, int_sqrt T v = Some r /\ 0 <= r /\ r * r <= v < (r + 1) * (r + 1).
Proof.
  intros. rep. rewrite int_sqrt_spec by assumption. exists (Z.sqrt v).
  split; [reflexivity|]. split; [apply Z.sqrt_nonneg|].
  pose proof (Z.sqrt_spec v) as S. cbv zeta in S. lia.
Qed.

Example int_sqrt_ex : int_sqrt u64 65535 = Some 255 /\ int_sqrt i8 120 = Some 10.
Proof. vm_compute. auto. Qed.

(* ---- C06: rounding division and periodic modulus ---- *)

Theorem div_round_up_ceiling : forall T U a b, ity_ok T -> ity_ok U ->
  representable T a -> representable U b -> 0 <= a -> 0 < b ->
  exists q, int_div_round_up T U a b = Some q /\ (q - 1) * b < a <= q * b.
Proof.
  intros. rep. rewrite int_div_round_up_spec by assumption. eexists. split; [reflexivity|].
  pose proof (Z.div_mod (- a) b). pose proof (Z.mod_pos_bound (- a) b). nia.
Qed.

Theorem div_round_half_down_nearest : forall T U a b, ity_ok T -> ity_ok U ->
  representable T a -> representable U b -> 0 <= a -> 0 < b ->
  exists q, int_div_round_half_down T U a b = Some q /\ - b < 2 * (a - q * b) <= b.
Proof. intros. rep. now apply int_div_round_half_down_spec. Qed.

Theorem periodic_mod_unique : forall T U a b, ity_ok T -> ity_ok U ->
  representable T a -> representable U b -> 0 < b ->
  exists m, int_periodic_mod T U a b = Some m /\ 0 <= m < b /\ (exists k, a = k * b + m).
Proof.
  intros. rep. rewrite int_periodic_mod_spec by (assumption || lia). eexists. split; [reflexivity|].
  split; [apply Z.mod_pos_bound; lia|]. exists (a / b). pose proof (Z.div_mod a b). lia.
Qed.

(* the function is also defined for negative divisors: same sign as divisor *)
Theorem periodic_mod_negative_divisor : forall T U a b, ity_ok T -> ity_ok U ->
  representable T a -> representable U b -> b < 0 ->
  exists m, int_periodic_mod T U a b = Some m /\ b < m <= 0 /\ (exists k, a = k * b + m).
Proof.
  intros. rep. rewrite int_periodic_mod_spec by (assumption || lia). eexists. split; [reflexivity|].
  split; [apply Z.mod_neg_bound; lia|]. exists (a / b). pose proof (Z.div_mod a b). lia.
Qed.

Example div_ex : int_div_round_up u64 u8 (2 ^ 64 - 1) 2 = Some (2 ^ 63) /\
  int_div_round_half_down i32 i32 7 2 = Some 3 /\ int_div_round_half_down i32 i32 8 3 = Some 3 /\
  int_periodic_mod i64 u8 (-(2 ^ 63)) 10 = Some 2 /\ int_periodic_mod i8 u64 (-1) (2 ^ 64 - 1) = Some (2 ^ 64 - 2).
Proof. vm_compute. auto 10. Qed.

(* ---- C07: bit positions ---- *)

Theorem find_msb_pos_log2 : forall T v, ity_ok T -> representable T v -> 0 < v ->
  exists p, int_find_msb_pos T v = Some p /\ 0 <= p /\ 2 ^ p <= v < 2 ^ (p + 1).
Proof.
  intros. rep. rewrite int_find_msb_pos_spec by (assumption || lia).
  replace (v =? 0) with false by lia. eexists. split; [reflexivity|].
  split; [apply Z.log2_nonneg|]. now apply Z.log2_spec.
Qed.

Theorem find_msb_pos_zero : forall T, ity_ok T -> int_find_msb_pos T 0 = Some (-1).
Proof. intros. rewrite int_find_msb_pos_spec by (auto using in_range_0; lia). reflexivity. Qed.

(* negative values: the sign bit *)
Theorem find_msb_pos_negative : forall T v, ity_ok T -> representable T v -> v < 0 ->
  int_find_msb_pos T v = Some (iwidth T - 1).
Proof. intros. rep. now apply int_find_msb_pos_neg. Qed.

(* the branch used by integer types whose traits have no find_msb_pos of their own *)
Theorem find_msb_pos_fallback_agrees : forall T v, ity_ok T -> representable T v -> 0 <= v ->
  exists p, int_find_msb_pos_fallback T v = Some p /\
    (v = 0 -> p = -1) /\ (0 < v -> 0 <= p /\ 2 ^ p <= v < 2 ^ (p + 1)).
Proof.
  intros. rep. rewrite int_find_msb_pos_fallback_spec by assumption.
  eexists. split; [reflexivity|]. destruct (Z.eqb_spec v 0).
  - split; [reflexivity|lia].
  - split; [lia|]. intros _. split; [apply Z.log2_nonneg|]. apply Z.log2_spec. lia.
Qed.

Theorem is_power_of_two_exact : forall T v, ity_ok T -> representable T v ->
  exists b, int_is_power_of_two T v = Some b /\ (b = true <-> exists k, 0 <= k /\ v = 2 ^ k).
Proof. intros. rep. now apply int_is_power_of_two_spec. Qed.

(* bits 0 .. n-1 set and no others *)
Theorem mask_low_bits : forall T n, ity_ok T ->
  0 <= n <= (if isigned T then iwidth T - 1 else iwidth T) ->
  exists m, int_mask T n = Some m /\ forall i, 0 <= i -> Z.testbit m i = (i <? n).
Proof.
  intros T n HT Hn. exists (2 ^ n - 1). rewrite int_mask_spec by assumption.
  split; [reflexivity|]. intros i Hi.
  replace (2 ^ n - 1) with (Z.ones n) by (rewrite Z.ones_equiv; lia).
  destruct (Z.ltb_spec i n); [apply Z.ones_spec_low|apply Z.ones_spec_high]; lia.
Qed.

Example bits_ex : int_find_msb_pos u64 (2 ^ 63 + 5) = Some 63 /\ int_find_msb_pos i8 (-128) = Some 7 /\
  int_find_msb_pos_fallback u16 300 = Some 8 /\ int_is_power_of_two i8 64 = Some true /\
  int_is_power_of_two i8 (-128) = Some false /\ int_mask u8 8 = Some 255 /\ int_mask i8 7 = Some 127.
Proof. vm_compute. auto 10. Qed.

(* ---- C08: two's complement casts between unsigned types ---- *)

(* what the property asks for *)
Definition twos_compl_cast_correct (T F : ity) (from old : Z) (res : option (bool * Z)) : Prop :=
  let v := signed_value (iwidth F) from in
  (- 2 ^ (iwidth T - 1) <= v < 2 ^ (iwidth T - 1) /\
     exists p, res = Some (true, p) /\ 0 <= p < 2 ^ iwidth T /\ signed_value (iwidth T) p = v) \/
  (~ (- 2 ^ (iwidth T - 1) <= v < 2 ^ (iwidth T - 1)) /\ res = Some (false, old)).

(* The full statement fails: 0xFFFF (= -1) in 16 bits is refused by the cast
   to 8 bits although -1 is representable. *)
Theorem twos_compl_cast_refuted : exists T F from old,
  ity_ok T /\ ity_ok F /\ isigned T = false /\ isigned F = false /\ representable F from /\
  ~ twos_compl_cast_correct T F from old (try_twos_compl_cast_uu T F from old).
Proof.
  exists u8, u16, 65535, 0. do 4 (split; [cbv; intuition discriminate|]).
  split; [cbv; intuition discriminate|].
  unfold twos_compl_cast_correct. cbv zeta.
  change (signed_value (iwidth u16) 65535) with (-1).
  change (try_twos_compl_cast_uu u8 u16 65535 0) with (Some (false, 0)).
  intros [[_ (p & Hp & _)]|[Hn _]]; [discriminate|]. apply Hn. cbv. intuition discriminate.
Qed.

(* It holds whenever the cast does not narrow from a type narrower than int. *)
Theorem twos_compl_cast_partial : forall T F from old, ity_ok T -> ity_ok F ->
  isigned T = false -> isigned F = false -> representable F from ->
  32 <= iwidth F \/ iwidth F <= iwidth T ->
  twos_compl_cast_correct T F from old (try_twos_compl_cast_uu T F from old).
Proof.
  intros T F from old HT HF ST SF Hf Hor. rep. unfold twos_compl_cast_correct. cbv zeta.
  pose proof (ity_ok_width _ HT). pose proof (ity_ok_width _ HF).
  assert (Hfr : 0 <= from < 2 ^ iwidth F) by (apply unsigned_range in Hf; auto).
  assert (0 < 2 ^ iwidth T) by (apply Z.pow_pos_nonneg; lia).
  destruct (Z_le_gt_dec (iwidth F) (iwidth T)) as [Hw|Hw].
  - rewrite widen_spec by assumption. left.
    pose proof (signed_value_range (iwidth F) from ltac:(lia) Hfr).
    assert (2 ^ (iwidth F - 1) <= 2 ^ (iwidth T - 1)) by (apply Z.pow_le_mono_r; lia).
    split; [lia|]. eexists. split; [reflexivity|]. split; [apply Z.mod_pos_bound; lia|].
    apply signed_value_of_mod; lia.
  - rewrite narrow_wide_spec by (assumption || lia). unfold fits_signed.
    destruct (Z.leb_spec (- 2 ^ (iwidth T - 1)) (signed_value (iwidth F) from));
    destruct (Z.ltb_spec (signed_value (iwidth F) from) (2 ^ (iwidth T - 1))); cbn [andb].
    1: left; split; [lia|]; eexists; split; [reflexivity|];
       split; [apply Z.mod_pos_bound; lia|apply signed_value_of_mod; lia].
    all: right; split; [lia|reflexivity].
Qed.

(* What happens in the remaining case: exactly the non-negative values pass,
   unchanged; every negative value is refused. *)
Theorem twos_compl_cast_narrow_behaviour : forall T F from old, ity_ok T -> ity_ok F ->
  isigned T = false -> isigned F = false -> representable F from ->
  iwidth T < iwidth F < 32 ->
  (0 <= signed_value (iwidth F) from ->
     twos_compl_cast_correct T F from old (try_twos_compl_cast_uu T F from old)) /\
  (signed_value (iwidth F) from < 0 -> try_twos_compl_cast_uu T F from old = Some (false, old)).
Proof.
  intros T F from old HT HF ST SF Hf Hw. rep. unfold twos_compl_cast_correct. cbv zeta.
  pose proof (ity_ok_width _ HT).
  assert (Hfr : 0 <= from < 2 ^ iwidth F) by (apply unsigned_range in Hf; auto).
  rewrite narrow_narrow_spec by assumption.
  assert (2 ^ (iwidth T - 1) < 2 ^ (iwidth F - 1)) by (apply Z.pow_lt_mono_r; lia).
  assert (2 ^ (iwidth T - 1) < 2 ^ iwidth T) by (apply Z.pow_lt_mono_r; lia).
  assert (0 < 2 ^ (iwidth T - 1)) by (apply Z.pow_pos_nonneg; lia).
  pose proof (pow2_double (iwidth F) ltac:(lia)).
  unfold signed_value.
  destruct (Z.ltb_spec from (2 ^ (iwidth F - 1))).
  - split; [intros _|lia]. destruct (Z.ltb_spec from (2 ^ (iwidth T - 1))).
    + left. split; [lia|]. exists from. split; [reflexivity|]. split; [lia|].
      destruct (Z.ltb_spec from (2 ^ (iwidth T - 1))); lia.
    + right. split; [lia|reflexivity].
  - split; [lia|intros _]. destruct (Z.ltb_spec from (2 ^ (iwidth T - 1))); [lia|reflexivity].
Qed.

Example twos_compl_ex : try_twos_compl_cast_uu u8 u32 (2 ^ 32 - 128) 0 = Some (true, 128) /\
  try_twos_compl_cast_uu u8 u32 (2 ^ 32 - 129) 0 = Some (false, 0) /\
  try_twos_compl_cast_uu u64 u8 200 0 = Some (true, 2 ^ 64 - 56).
Proof. vm_compute. auto. Qed.

Print Assumptions checked_add_exact.
Print Assumptions checked_sub_exact.
Print Assumptions checked_mul_exact.
Print Assumptions mixed_comparison_exact.
Print Assumptions checked_cast_exact.
Print Assumptions clamped_cast_nearest.
Print Assumptions clamped_cast_bounds.
Print Assumptions checked_pow_exact.
Print Assumptions checked_pow_negative_exponent.
Print Assumptions checked_shift_left_exact.
Print Assumptions int_sqrt_floor.
Print Assumptions div_round_up_ceiling.
Print Assumptions div_round_half_down_nearest.
Print Assumptions periodic_mod_unique.
Print Assumptions periodic_mod_negative_divisor.
Print Assumptions find_msb_pos_log2.
Print Assumptions find_msb_pos_zero.
Print Assumptions find_msb_pos_negative.
Print Assumptions find_msb_pos_fallback_agrees.
Print Assumptions is_power_of_two_exact.
Print Assumptions mask_low_bits.
Print Assumptions twos_compl_cast_refuted.
Print Assumptions twos_compl_cast_partial.
Print Assumptions twos_compl_cast_narrow_behaviour.
