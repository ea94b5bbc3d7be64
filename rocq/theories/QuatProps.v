(* Theorems about quaternions and rotations. *)
From Coq Require Import ZArith QArith Qcanon Bool Ring Field.
From Verif Require Import MatrixModel MatrixSpec MatrixProps QuatModel QuatSpec QuatProofs QuatProofs2.
Close Scope Q_scope.
Close Scope nat_scope.

(* C181.  The product is Hamilton's; with it, quaternions are a division ring, conjugation reverses products, and the squared magnitude of a product is
   the product of squared magnitudes, so the product of two unit quaternions is a unit quaternion. *)
Theorem quaternion_algebra : forall T, ordered_field T ->
  (forall a b, q_mul T a b = hamilton T a b) /\ (forall a, q_sq_sum T a = norm T a) /\
  (forall a b c, q_mul T (q_mul T a b) c = q_mul T a (q_mul T b c)) /\
  (forall a, q_mul T (q_scalar T (one T)) a = a /\ q_mul T a (q_scalar T (one T)) = a) /\
  (forall a b c, q_mul T a (q_add T b c) = q_add T (q_mul T a b) (q_mul T a c) /\ q_mul T (q_add T a b) c = q_add T (q_mul T a c) (q_mul T b c)) /\
  (forall a b, q_sub T a b = q_add T a (q_opp T b) /\ q_add T (q_sub T a b) b = a) /\
  (forall a b, q_conj T (q_mul T a b) = q_mul T (q_conj T b) (q_conj T a)) /\
  (forall a b, q_sq_sum T (q_mul T a b) = mul T (q_sq_sum T a) (q_sq_sum T b)) /\
  (forall a b, norm T a = one T -> norm T b = one T -> norm T (q_mul T a b) = one T).
Proof.
  intros T OF. pose (th := of_field T OF).
  split; [exact (q_mul_ok T OF)|]. split; [exact (sq_norm T OF)|]. split; [exact (q_mul_assoc T OF)|].
  split; [intros a; split; [apply (q_mul_1_l T OF)|apply (q_mul_1_r T OF)]|].
  split; [apply (q_distr T OF)|]. split; [apply (q_sub_ok T OF)|]. split; [apply (q_conj_mul T OF)|].
  split; [intros a b; rewrite !(sq_norm T OF); apply (norm_mul T OF)|].
  intros a b A B. rewrite (norm_mul T OF), A, B. apply (Ring_theory.Rmul_1_l (F_R th)).
Qed.

(* C182.  Every quaternion other than zero has an inverse, and division undoes multiplication. *)
Theorem quaternion_inverse : forall T, ordered_field T -> forall a, a <> quaternion T (zero T) (zero T) (zero T) (zero T) ->
  q_mul T a (q_inv T a) = q_scalar T (one T) /\ q_mul T (q_inv T a) a = q_scalar T (one T) /\
  forall b, q_mul T (q_div T b a) a = b /\ q_div T (q_mul T b a) a = b.
Proof.
  intros T OF a N. assert (N2 : norm T a <> zero T) by (intros C; apply N; apply (q_sq_zero T OF); exact C). destruct (q_inv_ok T OF a N2) as [A B].
  split; [exact A|]. split; [exact B|]. intros b. unfold q_div. rewrite !(q_mul_assoc T OF), A, B, (q_mul_1_r T OF). auto.
Qed.

(* C183.  The conjugate of a quaternion, or of a vector, by a quaternion is what its documentation says.  Conjugation of vectors by a unit quaternion is
   linear, and preserves scalar products and vector products; conjugation by q_1 and then by q_2 is conjugation by q_2 * q_1. *)
Theorem quaternion_conjugation : forall T, ordered_field T ->
  (forall a b, q_conj_by T a b = q_mul T (q_mul T b a) (q_conj T b)) /\
  (forall a b, q_conj_by T (Quat (zero T) a) b = Quat (zero T) (v_conj_by T a b)) /\
  (forall v q_1 q_2, v_conj_by T (v_conj_by T v q_1) q_2 = v_conj_by T v (q_mul T q_2 q_1)) /\
  (forall q k u v, v_conj_by T (sum_of T (scaled T k u) v) q = sum_of T (scaled T k (v_conj_by T u q)) (v_conj_by T v q)) /\
  (forall q u v, norm T q = one T -> scalar_product T (v_conj_by T u q) (v_conj_by T v q) = scalar_product T u v /\
    vector_product T (v_conj_by T u q) (v_conj_by T v q) = v_conj_by T (vector_product T u v) q).
Proof.
  intros T OF. split; [exact (conj_by_ok T OF)|]. split; [intros a b; rewrite (conj_by_ok T OF); apply (v_conj_by_ok T OF)|].
  split; [exact (v_conj_product T OF)|]. split; [intros q k u v; apply (v_conj_linear T OF)|].
  intros q u v N. rewrite (v_conj_scalar T OF), (v_conj_vector T OF), N, (scaled_one T OF). split; [|reflexivity]. apply (one_one T OF).
Qed.

(* C184.  The rotation matrix of a quaternion other than zero does what conjugation by its normalization does; it is orthogonal with determinant 1, and
   the matrix of a product is the product of matrices. *)
Theorem rotation_matrix_right : forall T, ordered_field T -> forall q, q <> quaternion T (zero T) (zero T) (zero T) (zero T) ->
  (forall v, scaled T (norm T q) (apply T (to_rotation_matrix T q) v) = v_conj_by T v q) /\
  product T (to_rotation_matrix T q) (transposed T (to_rotation_matrix T q)) = identity T /\
  determinant T (to_rotation_matrix T q) = one T /\
  (forall k, k <> zero T -> to_rotation_matrix T (times T k q) = to_rotation_matrix T q) /\
  (forall q_2, q_2 <> quaternion T (zero T) (zero T) (zero T) (zero T) ->
    to_rotation_matrix T (q_mul T q q_2) = product T (to_rotation_matrix T q) (to_rotation_matrix T q_2)).
Proof.
  intros T OF q N. assert (N2 : norm T q <> zero T) by (intros C; apply N; apply (q_sq_zero T OF); exact C). destruct (matrix_orthogonal T OF q N2) as [A B].
  split; [intros v; apply (matrix_apply T OF); exact N2|]. split; [exact A|]. split; [exact B|]. split; [intros k K; apply (matrix_times T OF); assumption|].
  intros q_2 M. assert (M2 : norm T q_2 <> zero T) by (intros C; apply M; apply (q_sq_zero T OF); exact C). apply (matrix_product T OF); assumption.
Qed.

(* C185.  The quaternion that is made from a unit vector and an angle, or its cosine, is a unit quaternion, and conjugation by it is rotation about the
   vector by the angle.  The one that is made from proper Euler angles is the product of rotations about the Z-axis, the X-axis, and the Z-axis. *)
Theorem axis_angle_right : forall T f, ordered_field T ->
  (forall axis angle v, scalar_product T axis axis = one T -> angle_at T f angle ->
    norm T (from_axis_angle T f axis angle) = one T /\ v_conj_by T v (from_axis_angle T f axis angle) = rotated T axis (f_cos f angle) (f_sin f angle) v) /\
  (forall axis c v, scalar_product T axis axis = one T ->
    root_at T f (div T (add T c (one T)) (add T (one T) (one T))) -> root_at T f (div T (sub T (one T) c) (add T (one T) (one T))) ->
    norm T (from_axis_cos_angle T f axis c) = one T /\
    exists s, add T (mul T c c) (mul T s s) = one T /\ v_conj_by T v (from_axis_cos_angle T f axis c) = rotated T axis c s v) /\
  (forall alpha beta gamma, from_proper_euler_angles T f alpha beta gamma =
    hamilton T (hamilton T (from_axis_angle T f (V3 (zero T) (zero T) (one T)) alpha) (from_axis_angle T f (V3 (one T) (zero T) (zero T)) beta))
      (from_axis_angle T f (V3 (zero T) (zero T) (one T)) gamma)).
Proof.
  intros T f OF. split; [|split].
  - intros axis angle v U A. destruct (turned_versor T OF f (Rotation axis angle) v U A) as [E N]. split; [exact N|]. symmetry. exact E.
  - intros axis c v U R1 R2. rewrite (from_axis_cos_ok T OF f axis c R1 R2).
    destruct (cos_sin T OF f c R1 R2) as (C & D & E). destruct (versor_rotates T OF axis _ _ v U C) as [V N]. split; [exact N|].
    eexists. split; [|rewrite V, D; reflexivity]. exact E.
  - intros alpha beta gamma. rewrite <- !(q_mul_ok T OF). apply (euler_ok T OF).
Qed.

(* C186.  The rotation that is made from a quaternion other than zero has a unit vector as axis, and is the rotation of the normalization of the
   quaternion.  The sum of two rotations is the first one followed by the second one.  The negation is the inverse. *)
Theorem rotations_right : forall T f, ordered_field T ->
  (forall q, convertible T f q -> angle_at T f (r_angle (from_versor T f q)) -> unit_axis T (from_versor T f q) /\
    (q <> quaternion T (zero T) (zero T) (zero T) (zero T) -> forall v, scaled T (norm T q) (turned T f (from_versor T f q) v) = v_conj_by T v q)) /\
  (forall q, convertible T f q -> q_v q <> V3 (zero T) (zero T) (zero T) -> to_versor T f (from_versor T f q) = q_normalize T f q) /\
  (forall a b, unit_axis T a -> unit_axis T b -> angle_at T f (r_angle a) -> angle_at T f (r_angle b) ->
    convertible T f (q_mul T (to_versor T f b) (to_versor T f a)) -> angle_at T f (r_angle (r_add T f a b)) ->
    unit_axis T (r_add T f a b) /\ forall v, turned T f (r_add T f a b) v = turned T f b (turned T f a v)) /\
  (forall a v, unit_axis T a -> circle_at T f (r_angle a) -> even_odd_at T f (r_angle a) -> turned T f (r_opp T a) (turned T f a v) = v) /\
  (forall a b, r_sub T f a b = r_add T f a (r_opp T b)).
Proof.
  intros T f OF. split; [|split; [|split; [|split]]].
  - intros q C A. destruct (convert_ok T OF f q C) as (U & _ & R & _). split; [exact U|]. intros N v.
    assert (N2 : norm T q <> zero T) by (intros D; apply N; apply (q_sq_zero T OF); exact D).
    destruct (turned_versor T OF f (from_versor T f q) v U A) as [-> _]. apply R, N2.
  - intros q C. apply (convert_ok T OF f q C).
  - intros a b Ua Ub Aa Ab C Ar. split.
    + apply (sum_ok T OF f a b (V3 (zero T) (zero T) (zero T))); assumption.
    + intros v. apply (sum_ok T OF f a b v); assumption.
  - intros a v. apply (opp_ok T OF f).
  - reflexivity.
Qed.

(* ---- concrete cases: rational numbers ---- *)

Definition qc (n : Z) (d : positive) : scalar rationals := Q2Qc (n # d).
Definition look (l : list (scalar rationals * scalar rationals)) (x : scalar rationals) : scalar rationals := match List.find (fun p => Qc_eq_bool (fst p) x) l with Some p => snd p | None => Q2Qc 0 end.
(* cosines and sines for an angle with cosine 3/5, and multiples, by the names 1, 2, and 4 *)
Definition ex_funcs : funcs rationals := Funcs rationals
  (look (cons (qc 576 625, qc 24 25) (cons (qc 1 1, qc 1 1) (cons (qc 16 25, qc 4 5) (cons (qc 9 25, qc 3 5) nil)))))
  (look (cons (qc 0 1, qc 1 1) (cons (qc 1 1, qc 3 5) (cons (qc 2 1, qc (-7) 25) (cons (qc (-2) 1, qc (-7) 25) (cons (qc 4 1, qc (-527) 625) nil))))))
  (look (cons (qc 1 1, qc 4 5) (cons (qc 2 1, qc 24 25) (cons (qc (-2) 1, qc (-24) 25) (cons (qc 4 1, qc (-336) 625) nil)))))
  (fun _ _ => qc 2 1).
Definition ex_rot : rotation rationals := Rotation (V3 (qc 0 1) (qc 0 1) (qc 1 1)) (qc 2 1).

Example rotations_case : ordered_field rationals /\ unit_axis rationals ex_rot /\ angle_at rationals ex_funcs (r_angle ex_rot) /\
  convertible rationals ex_funcs (q_mul rationals (to_versor rationals ex_funcs ex_rot) (to_versor rationals ex_funcs ex_rot)) /\
  angle_at rationals ex_funcs (r_angle (r_add rationals ex_funcs ex_rot ex_rot)) /\
  circle_at rationals ex_funcs (r_angle ex_rot) /\ even_odd_at rationals ex_funcs (r_angle ex_rot) /\
  r_angle (r_add rationals ex_funcs ex_rot ex_rot) = qc 4 1 /\
  root_at rationals ex_funcs (div rationals (add rationals (qc (-7) 25) (one rationals)) (add rationals (one rationals) (one rationals))) /\
  root_at rationals ex_funcs (div rationals (sub rationals (one rationals) (qc (-7) 25)) (add rationals (one rationals) (one rationals))).
Proof.
  split; [exact rationals_ordered_field|]. repeat split; apply Qc_is_canon; vm_compute; reflexivity.
Qed.

Lemma same_vec : forall a b : vec3 rationals, v_x a = v_x b -> v_y a = v_y b -> v_z a = v_z b -> a = b.
Proof. intros [] []. cbn. intros -> -> ->. reflexivity. Qed.
Lemma same_quat : forall a b : quat rationals, q_w a = q_w b -> q_v a = q_v b -> a = b.
Proof. intros [] []. cbn. intros -> ->. reflexivity. Qed.

(* 1 + 2i + 3j + 4k times 5 + 6i + 7j + 8k is -60 + 12i + 30j + 24k, and the other way around -60 + 20i + 14j + 32k *)
Example quaternion_case :
  let a := quaternion rationals (qc 1 1) (qc 2 1) (qc 3 1) (qc 4 1) in
  let b := quaternion rationals (qc 5 1) (qc 6 1) (qc 7 1) (qc 8 1) in
  q_mul rationals a b = quaternion rationals (qc (-60) 1) (qc 12 1) (qc 30 1) (qc 24 1) /\
  q_mul rationals b a = quaternion rationals (qc (-60) 1) (qc 20 1) (qc 14 1) (qc 32 1) /\
  q_inv rationals a = quaternion rationals (qc 1 30) (qc (-1) 15) (qc (-1) 10) (qc (-2) 15) /\ a <> quaternion rationals (zero rationals) (zero rationals) (zero rationals) (zero rationals) /\
  v_conj_by rationals (V3 (qc 1 1) (qc 0 1) (qc 0 1)) a = V3 (qc (-20) 1) (qc 20 1) (qc 10 1).
Proof.
  cbv zeta. unfold quaternion. split; [|split; [|split; [|split]]].
  - apply same_quat; [|apply same_vec]; apply Qc_is_canon; vm_compute; reflexivity.
  - apply same_quat; [|apply same_vec]; apply Qc_is_canon; vm_compute; reflexivity.
  - apply same_quat; [|apply same_vec]; apply Qc_is_canon; vm_compute; reflexivity.
  - intros C. apply (f_equal q_w) in C. cbn [q_w] in C. apply (f_equal this) in C. vm_compute in C. discriminate.
  - apply same_vec; apply Qc_is_canon; vm_compute; reflexivity.
Qed.

Print Assumptions quaternion_algebra.
Print Assumptions quaternion_inverse.
Print Assumptions quaternion_conjugation.
Print Assumptions rotation_matrix_right.
Print Assumptions axis_angle_right.
Print Assumptions rotations_right.
