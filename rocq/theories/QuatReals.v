(* The real numbers, with the actual functions, as an instance of everything that the theorems about quaternions, rotations, and the trackball assume *)
From Coq Require Import Reals Lra Bool Ring Field.
From Verif Require Import MatrixModel MatrixSpec QuatModel QuatSpec TrackGeoSpec.
Open Scope R_scope.

Definition reals : ops := {|
  scalar := R;
  zero := 0; one := 1;
  add := Rplus; mul := Rmult; sub := Rminus; opp := Ropp; div := Rdiv;
  eqb := fun x y => if Req_EM_T x y then true else false;
  lt := fun x y => if Rlt_dec x y then true else false |}.

Definition real_atan2 (y x : R) : R :=
  let r := sqrt (x * x + y * y) in
  if Req_EM_T r 0 then 0 else if Rlt_dec y 0 then - acos (x / r) else acos (x / r).
Definition real_funcs : funcs reals := Funcs reals sqrt cos sin real_atan2.

Lemma reals_lt : forall x y, lt reals x y = true <-> x < y.
Proof. intros x y. cbn. destruct (Rlt_dec x y); split; intros; auto; try discriminate; contradiction. Qed.
Lemma reals_nlt : forall x y, lt reals x y = false <-> y <= x.
Proof. intros x y. cbn. destruct (Rlt_dec x y); split; intros; auto; try discriminate; lra. Qed.

Lemma reals_ordered_field : ordered_field reals.
Proof.
  constructor.
  - cbn. constructor.
    + exact RTheory.
    + exact R1_neq_R0.
    + intros. unfold Rdiv. ring.
    + intros p N. field. exact N.
  - intros x y. cbn. destruct (Req_EM_T x y); split; intros; auto; try discriminate; contradiction.
  - intros x. apply reals_nlt. lra.
  - intros x y z. rewrite !reals_lt. lra.
  - intros x y. rewrite !reals_nlt. lra.
  - intros x y z. rewrite !reals_lt. cbn. lra.
  - intros x y. rewrite !reals_lt. cbn. apply Rmult_lt_0_compat.
Qed.

Lemma real_polar : forall y x r, 0 <= r -> r * r = x * x + y * y -> r * cos (real_atan2 y x) = x /\ r * sin (real_atan2 y x) = y.
Proof.
  intros y x r P E. unfold real_atan2. assert (S : sqrt (x * x + y * y) = r) by (rewrite <- E; apply sqrt_square, P). rewrite S.
  destruct (Req_EM_T r 0) as [->|N].
  { assert (x * x + y * y = 0) by lra. pose proof (Rle_0_sqr x) as X. pose proof (Rle_0_sqr y) as Y. unfold Rsqr in *.
    assert (A : x * x = 0) by lra. assert (B : y * y = 0) by lra. apply Rmult_integral in A. apply Rmult_integral in B. split; ring_simplify; lra. }
  assert (Pr : 0 < r) by lra. assert (Q : -1 <= x / r <= 1).
  { assert (H : Rsqr (x / r) <= Rsqr 1).
    { unfold Rsqr. replace (x / r * (x / r)) with (1 - (y / r) * (y / r)).
      - pose proof (Rle_0_sqr (y / r)) as Y. unfold Rsqr in Y. lra.
      - apply Rmult_eq_reg_l with (r * r); [|apply Rmult_integral_contrapositive_currified; exact N]. field_simplify; [|exact N|exact N]. rewrite <- !Rsqr_pow2. unfold Rsqr. lra. }
    apply Rsqr_le_abs_0 in H. rewrite Rabs_R1 in H. pose proof (Rle_abs (x / r)). pose proof (Rle_abs (- (x / r))). rewrite Rabs_Ropp in *. lra. }
  assert (C : cos (acos (x / r)) = x / r) by (apply cos_acos; exact Q).
  assert (D : sin (acos (x / r)) = Rabs (y / r)).
  { rewrite sin_acos by exact Q. rewrite <- sqrt_Rsqr_abs. f_equal. unfold Rsqr.
    apply Rmult_eq_reg_l with (r * r); [|apply Rmult_integral_contrapositive_currified; exact N]. field_simplify; [|exact N|exact N]. rewrite <- !Rsqr_pow2. unfold Rsqr. lra. }
  assert (K : r * Rabs (y / r) = Rabs y).
  { unfold Rdiv. rewrite Rabs_mult. rewrite (Rabs_pos_eq (/ r)) by (left; apply Rinv_0_lt_compat; exact Pr). field. exact N. }
  destruct (Rlt_dec y 0) as [Y|Y].
  - rewrite cos_neg, sin_neg, C, D. split; [field; exact N|]. rewrite <- Ropp_mult_distr_r, K, Rabs_left by exact Y. ring.
  - rewrite C, D. split; [field; exact N|]. rewrite K. apply Rabs_pos_eq. lra.
Qed.

Theorem real_laws : laws reals real_funcs acos.
Proof.
  constructor.
  - intros x N. apply reals_nlt in N. split; [apply sqrt_sqrt, N|]. apply reals_nlt. apply sqrt_pos.
  - intros x. cbv [angle_at circle_at real_funcs f_cos f_sin]. cbn. change (scalar reals) with R in x. replace (1 + 1) with 2 by ring. set (h := x / 2). assert (E : x = 2 * h) by (unfold h; field). clearbody h. subst x.
    pose proof (sin2_cos2 h) as S. unfold Rsqr in S. split; [lra|]. split; [rewrite cos_2a; reflexivity|rewrite sin_2a; ring].
  - intros x. split; [apply cos_neg|apply sin_neg].
  - split; [apply cos_0|apply sin_0].
  - intros y x r N E. apply reals_nlt in N. apply (real_polar y x r N E).
  - intros x A B. apply reals_nlt in A. apply reals_nlt in B. cbn in *. assert (Q : -1 <= x <= 1) by lra. split; [apply cos_acos; exact Q|]. rewrite sin_acos by exact Q. reflexivity.
Qed.

Print Assumptions real_laws.
