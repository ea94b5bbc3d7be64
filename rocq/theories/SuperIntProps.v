(* Theorems for SuperInt: C09 (arithmetic) and C10 (overflow detection). *)
From Coq Require Import ZArith Lia Bool ZifyBool.
From Verif Require Import CInt IntModel IntSpec IntProofs SuperIntModel SuperIntSpec SuperIntProofs.
Open Scope Z_scope.

(* ---- C09 ---- *)

Theorem superint_ring_ops : forall N a b, 1 <= N -> s_valid N a -> s_valid N b ->
  (s_valid N (s_add N a b) /\ s_reduces N (s_value N a + s_value N b) (s_value N (s_add N a b))) /\
  (s_valid N (s_sub N a b) /\ s_reduces N (s_value N a - s_value N b) (s_value N (s_sub N a b))) /\
  (s_valid N (s_mul N a b) /\ s_reduces N (s_value N a * s_value N b) (s_value N (s_mul N a b))) /\
  (s_valid N (s_neg N a) /\ s_reduces N (- s_value N a) (s_value N (s_neg N a))).
Proof.
  intros. split; [now apply s_add_spec|]. split; [now apply s_sub_spec|].
  split; [now apply s_mul_spec|now apply s_neg_spec].
Qed.

Theorem superint_bitwise : forall N a b, 1 <= N -> s_valid N a -> s_valid N b ->
  (s_valid N (s_and a b) /\ s_value N (s_and a b) = Z.land (s_value N a) (s_value N b)) /\
  (s_valid N (s_or a b) /\ s_value N (s_or a b) = Z.lor (s_value N a) (s_value N b)) /\
  (s_valid N (s_xor a b) /\ s_value N (s_xor a b) = Z.lxor (s_value N a) (s_value N b)) /\
  (s_valid N (s_not N a) /\ s_value N (s_not N a) = Z.lnot (s_value N a)).
Proof.
  intros. split; [|split; [|split]].
  - apply (s_bitop_spec N a b Z.land andb); auto using Z.land_spec.
    intros; apply Z.land_nonneg; auto.
  - apply (s_bitop_spec N a b Z.lor orb); auto using Z.lor_spec.
    intros; apply Z.lor_nonneg; auto.
  - apply (s_bitop_spec N a b Z.lxor xorb); auto using Z.lxor_spec.
    intros; apply Z.lxor_nonneg; split; auto.
  - now apply s_not_spec.
Qed.

Theorem superint_shifts : forall N a n, 1 <= N -> s_valid N a ->
  (0 <= n < N -> exists r, s_shl N a n = Some r /\ s_valid N r /\
     s_reduces N (s_value N a * 2 ^ n) (s_value N r)) /\
  (* the right shift is a logical shift of the (N+1)-bit pattern *)
  (0 < n < N -> exists r, s_shr N a n = Some r /\ s_valid N r /\
     s_value N r = (s_value N a mod 2 ^ (N + 1)) / 2 ^ n).
Proof. intros. split; intros; [now apply s_shl_spec|now apply s_shr_spec]. Qed.

Theorem superint_compare : forall N a b, 1 <= N -> s_valid N a -> s_valid N b ->
  (s_eq a b = true <-> s_value N a = s_value N b) /\
  (s_ne a b = true <-> s_value N a <> s_value N b) /\
  (s_lt a b = true <-> s_value N a < s_value N b) /\
  (s_le a b = true <-> s_value N a <= s_value N b) /\
  (s_gt a b = true <-> s_value N a > s_value N b) /\
  (s_ge a b = true <-> s_value N a >= s_value N b).
Proof.
  intros. unfold s_ne, s_le, s_gt, s_ge.
  rewrite (s_eq_spec N), !(s_lt_spec N) by assumption.
  split; [|split; [|split; [|split; [|split]]]]; lia.
Qed.

(* conversions from and to builtin types with at most N value bits *)
Theorem superint_conversions : forall N T, 1 <= N -> ity_ok T -> 
  (if isigned T then iwidth T - 1 else iwidth T) <= N ->
  (forall v, representable T v -> s_valid N (s_of N T v) /\ s_value N (s_of N T v) = v) /\
  (forall a old, s_valid N a -> checked_outcome T old (s_value N a) (s_get_as N T a old)).
Proof.
  intros N T HN HT Hw. split.
  - intros v Hv. apply s_of_spec; auto. now apply representable_in_range.
  - intros a old Ha. rewrite s_get_as_spec by assumption. unfold checked_outcome.
    rewrite !representable_in_range. destruct (in_rangeb T (s_value N a)) eqn:E.
    + left. split; [now apply in_rangeb_spec|reflexivity].
    + right. split; [now apply in_rangeb_false|reflexivity].
Qed.

Theorem superint_extremes : forall N, 1 <= N ->
  s_valid N s_min /\ s_valid N (s_max N) /\
  (forall x, s_fits N x -> s_value N s_min <= x <= s_value N (s_max N)) /\
  s_fits N (s_value N s_min) /\ s_fits N (s_value N (s_max N)).
Proof.
  intros N HN. assert (1 < 2 ^ N) by (apply Z.pow_gt_1; lia).
  unfold s_valid, s_fits, s_value, s_max, s_min, umax. cbn. intuition lia.
Qed.

Example superint_ex :
  let a := s_of 64 (ITy 64 false) (2 ^ 64 - 1) in let b := s_of 64 (ITy 64 true) (- 2 ^ 63) in
  s_valid 64 a /\ s_valid 64 b /\
  s_value 64 (s_add 64 a a) = -2 /\ s_value 64 (s_mul 64 a b) = - 2 ^ 64 + 2 ^ 63 + 2^64 /\
  s_get_as 64 (ITy 8 true) (s_neg 64 (s_of 64 t_int 128)) 5 = Some (true, -128).
Proof. vm_compute. intuition discriminate. Qed.

(* ---- C10 ---- *)

Theorem superint_overflow_detection : forall N a b, 1 <= N -> s_valid N a -> s_valid N b ->
  s_ov_outcome N a (s_value N a + s_value N b) (s_add_ov N a b) /\
  s_ov_outcome N a (s_value N a - s_value N b) (s_sub_ov N a b) /\
  s_ov_outcome N a (s_value N a * s_value N b) (s_mul_ov N a b) /\
  (s_value N b <> 0 -> exists res, s_div_ov N a b = Some res /\
     s_ov_outcome N a (Z.quot (s_value N a) (s_value N b)) res).
Proof.
  intros. split; [now apply s_add_ov_spec|]. split; [now apply s_sub_ov_spec|].
  split; [now apply s_mul_ov_spec|]. intros. now apply s_div_ov_spec.
Qed.

(* the operators / and % (modulo 2^(N+1) for the single overflowing quotient);
   their internal assertions hold *)
Theorem superint_division : forall N a b, 1 <= N -> s_valid N a -> s_valid N b -> s_value N b <> 0 ->
  (exists r, s_div N a b = Some r /\ s_valid N r /\
     s_reduces N (Z.quot (s_value N a) (s_value N b)) (s_value N r)) /\
  (exists r, s_mod N a b = Some r /\ s_valid N r /\
     s_value N r = Z.rem (s_value N a) (s_value N b)).
Proof. intros. split; [now apply s_div_spec|now apply s_mod_spec]. Qed.

Example superint_ov_ex :
  let m1 := s_of 64 t_int (-1) in
  s_div_ov 64 s_min m1 = Some (true, s_min) /\
  s_mul_ov 64 s_min m1 = (true, s_min) /\
  s_mul_ov 64 s_min (s_of 64 t_int 1) = (false, s_min) /\
  fst (s_sub_ov 64 s_min (s_of 64 t_int 1)) = true /\
  s_div_ov 64 s_min (s_of 64 t_int 2) = Some (false, s_of 64 (ITy 64 true) (- 2 ^ 63)).
Proof. vm_compute. auto 10. Qed.

Print Assumptions superint_ring_ops.
Print Assumptions superint_bitwise.
Print Assumptions superint_shifts.
Print Assumptions superint_compare.
Print Assumptions superint_conversions.
Print Assumptions superint_extremes.
Print Assumptions superint_overflow_detection.
Print Assumptions superint_division.
