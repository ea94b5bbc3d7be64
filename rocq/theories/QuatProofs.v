(* Lemmas about quaternions and rotations *)
From Coq Require Import Bool Ring Field.
From Verif Require Import MatrixModel MatrixSpec QuatModel QuatSpec.

Section Q.
  Variable T : ops.
  Hypothesis OF : ordered_field T.
  Add Field fld : (of_field T OF).
  Notation F := (scalar T).

  Ltac flat := repeat match goal with q : quat T |- _ => destruct q | v : vec3 T |- _ => destruct v end;
    cbv [q_mul q_add q_sub q_opp q_conj q_conj_by v_conj_by q_scalar q_sq_sum q_inv q_div hamilton times norm quaternion scaled sum_of scalar_product vector_product rotated
      apply transposed product identity determinant v_add v_sub v_opp v_mul_l v_mul_r v_div v_sq_sum v_dot v_cross square two q_w q_v v_x v_y v_z] in *.
  Ltac parts := repeat match goal with |- Quat _ _ = Quat _ _ => f_equal | |- V3 _ _ _ = V3 _ _ _ => f_equal | |- (_, _) = (_, _) => f_equal end.

  Ltac nz := match goal with N : _ <> _ |- _ <> _ => first [exact N|let C := fresh in intros C; apply N; refine (eq_trans _ C); ring] end.

  Lemma two_nonzero : two T <> zero T.
  Proof.
    assert (P : lt T (zero T) (one T) = true).
    { destruct (lt T (zero T) (one T)) eqn:E; [reflexivity|]. destruct (lt T (one T) (zero T)) eqn:G.
      - assert (N : lt T (zero T) (opp T (one T)) = true).
        { pose proof (of_add T OF _ _ (opp T (one T)) G) as H. replace (add T (one T) (opp T (one T))) with (zero T) in H by ring.
          replace (add T (zero T) (opp T (one T))) with (opp T (one T)) in H by ring. exact H. }
        pose proof (of_mul T OF _ _ N N) as H. replace (mul T (opp T (one T)) (opp T (one T))) with (one T) in H by ring. congruence.
      - pose proof (of_total T OF _ _ E G) as C. exfalso. apply (F_1_neq_0 (of_field T OF)). symmetry. exact C. }
    intros C. pose proof (of_add T OF _ _ (one T) P) as H. replace (add T (zero T) (one T)) with (one T) in H by ring.
    fold (two T) in H. rewrite C in H. pose proof (of_irrefl T OF (zero T)) as I. rewrite (of_trans T OF _ _ _ P H) in I. discriminate.
  Qed.

  Lemma square_pos : forall x : F, x <> zero T -> lt T (zero T) (mul T x x) = true.
  Proof.
    intros x N. destruct (lt T (zero T) x) eqn:E; [apply (of_mul T OF); assumption|]. destruct (lt T x (zero T)) eqn:G.
    - assert (M : lt T (zero T) (opp T x) = true).
      { pose proof (of_add T OF _ _ (opp T x) G) as H. replace (add T x (opp T x)) with (zero T) in H by ring.
        replace (add T (zero T) (opp T x)) with (opp T x) in H by ring. exact H. }
      pose proof (of_mul T OF _ _ M M) as H. replace (mul T (opp T x) (opp T x)) with (mul T x x) in H by ring. exact H.
    - exfalso. apply N. symmetry. apply (of_total T OF); assumption.
  Qed.

  Definition nonneg (x : F) : Prop := x = zero T \/ lt T (zero T) x = true.
  Lemma zero_dec : forall x : F, x = zero T \/ x <> zero T.
  Proof. intros x. destruct (eqb T x (zero T)) eqn:E; [left; apply (of_eqb T OF); exact E|]. right. intros C. apply (of_eqb T OF) in C. congruence. Qed.
  Lemma square_nonneg : forall x, nonneg (mul T x x).
  Proof. intros x. destruct (zero_dec x) as [->|N]; [left; ring|right; apply square_pos, N]. Qed.
  Lemma pos_add : forall x y, lt T (zero T) x = true -> nonneg y -> lt T (zero T) (add T x y) = true.
  Proof.
    intros x y P [->|Q]; [replace (add T x (zero T)) with x by ring; exact P|]. pose proof (of_add T OF _ _ x Q) as H.
    replace (add T (zero T) x) with x in H by ring. replace (add T y x) with (add T x y) in H by ring. exact (of_trans T OF _ _ _ P H).
  Qed.
  Lemma nonneg_add : forall x y, nonneg x -> nonneg y -> nonneg (add T x y).
  Proof. intros x y [->|P] N; [replace (add T (zero T) y) with y by ring; exact N|right; apply pos_add; assumption]. Qed.
  Lemma sum_zero : forall x y, nonneg x -> nonneg y -> add T x y = zero T -> x = zero T /\ y = zero T.
  Proof.
    intros x y [->|P] N E; [replace (add T (zero T) y) with y in E by ring; auto|]. pose proof (pos_add x y P N) as H. rewrite E, (of_irrefl T OF) in H. discriminate.
  Qed.
  Lemma square_zero : forall x, mul T x x = zero T -> x = zero T.
  Proof. intros x E. destruct (zero_dec x) as [H|N]; [exact H|]. apply square_pos in N. rewrite E, (of_irrefl T OF) in N. discriminate. Qed.

  Lemma v_sq_zero : forall v : vec3 T, v_sq_sum T v = zero T -> v = V3 (zero T) (zero T) (zero T).
  Proof.
    intros [x y z] E. cbv [v_sq_sum square v_x v_y v_z] in E. apply sum_zero in E; [|apply nonneg_add; [apply nonneg_add; [left; reflexivity|apply square_nonneg]|apply square_nonneg]|apply square_nonneg].
    destruct E as [E Z0]. apply sum_zero in E; [|apply nonneg_add; [left; reflexivity|apply square_nonneg]|apply square_nonneg]. destruct E as [E Y0].
    replace (add T (zero T) (mul T x x)) with (mul T x x) in E by ring. apply square_zero in E. apply square_zero in Y0. apply square_zero in Z0. subst. reflexivity.
  Qed.
  Lemma v_sq_nonneg : forall v : vec3 T, nonneg (v_sq_sum T v).
  Proof. intros [x y z]. cbv [v_sq_sum square v_x v_y v_z]. apply nonneg_add; [apply nonneg_add; [apply nonneg_add; [left; reflexivity|]|]|]; apply square_nonneg. Qed.
  Lemma q_sq_zero : forall q : quat T, norm T q = zero T <-> q = quaternion T (zero T) (zero T) (zero T) (zero T).
  Proof.
    intros [w v]. split.
    - intros E. assert (E2 : add T (mul T w w) (v_sq_sum T v) = zero T) by (rewrite <- E; destruct v as [x y z]; cbv [v_sq_sum norm square v_x v_y v_z]; ring).
      apply sum_zero in E2; [|apply square_nonneg|apply v_sq_nonneg]. destruct E2 as [A B]. apply square_zero in A. apply v_sq_zero in B. subst. reflexivity.
    - intros E. rewrite E. cbv [norm quaternion]. ring.
  Qed.

  Lemma q_mul_ok : forall a b, q_mul T a b = hamilton T a b.
  Proof. intros. flat. parts; ring. Qed.
  Lemma sq_norm : forall a, q_sq_sum T a = norm T a.
  Proof. intros. flat. ring. Qed.
  Lemma q_mul_assoc : forall a b c, q_mul T (q_mul T a b) c = q_mul T a (q_mul T b c).
  Proof. intros. flat. parts; ring. Qed.
  Lemma q_mul_1_l : forall a, q_mul T (q_scalar T (one T)) a = a.
  Proof. intros. flat. parts; ring. Qed.
  Lemma q_mul_1_r : forall a, q_mul T a (q_scalar T (one T)) = a.
  Proof. intros. flat. parts; ring. Qed.
  Lemma norm_mul : forall a b, norm T (q_mul T a b) = mul T (norm T a) (norm T b).
  Proof. intros. flat. ring. Qed.
  Lemma norm_conj : forall a, norm T (q_conj T a) = norm T a.
  Proof. intros. flat. ring. Qed.
  Lemma q_inv_ok : forall a, norm T a <> zero T -> q_mul T a (q_inv T a) = q_scalar T (one T) /\ q_mul T (q_inv T a) a = q_scalar T (one T).
  Proof. intros [w [x y z]] N. rewrite <- sq_norm in N. flat. split; parts; field; nz. Qed.

  Lemma conj_by_ok : forall a b, q_conj_by T a b = q_mul T (q_mul T b a) (q_conj T b).
  Proof. intros. flat. parts; ring. Qed.
  Lemma v_conj_by_ok : forall a b, q_mul T (q_mul T b (Quat (zero T) a)) (q_conj T b) = Quat (zero T) (v_conj_by T a b).
  Proof. intros. flat. parts; ring. Qed.
  Lemma v_conj_product : forall v a b, v_conj_by T (v_conj_by T v a) b = v_conj_by T v (q_mul T b a).
  Proof. intros. flat. parts; ring. Qed.
  Lemma v_conj_scalar : forall u v b, scalar_product T (v_conj_by T u b) (v_conj_by T v b) = mul T (mul T (norm T b) (norm T b)) (scalar_product T u v).
  Proof. intros. flat. ring. Qed.
  Lemma v_conj_vector : forall u v b, vector_product T (v_conj_by T u b) (v_conj_by T v b) = scaled T (norm T b) (v_conj_by T (vector_product T u v) b).
  Proof. intros. flat. parts; ring. Qed.
  Lemma v_conj_linear : forall k u v b, v_conj_by T (sum_of T (scaled T k u) v) b = sum_of T (scaled T k (v_conj_by T u b)) (v_conj_by T v b).
  Proof. intros. flat. parts; ring. Qed.
  Lemma v_conj_times : forall k v b, v_conj_by T v (times T k b) = scaled T (mul T k k) (v_conj_by T v b).
  Proof. intros. flat. parts; ring. Qed.

  Lemma matrix_apply : forall q v, norm T q <> zero T -> scaled T (norm T q) (apply T (to_rotation_matrix T q) v) = v_conj_by T v q.
  Proof. intros [w [x y z]] v N. rewrite <- sq_norm in N. unfold to_rotation_matrix. flat. parts; field; nz. Qed.
  Lemma matrix_orthogonal : forall q, norm T q <> zero T ->
    product T (to_rotation_matrix T q) (transposed T (to_rotation_matrix T q)) = identity T /\ determinant T (to_rotation_matrix T q) = one T.
  Proof. intros [w [x y z]] N. rewrite <- sq_norm in N. unfold to_rotation_matrix. flat. split; [parts; field; nz|field; nz]. Qed.
  Lemma matrix_times : forall k q, k <> zero T -> norm T q <> zero T -> to_rotation_matrix T (times T k q) = to_rotation_matrix T q.
  Proof.
    intros k [w [x y z]] K N. assert (N2 : norm T (times T k (Quat w (V3 x y z))) <> zero T).
    { intros C. apply q_sq_zero in C. cbv [times quaternion] in C. injection C as C1 C2 C3 C4. apply N. apply q_sq_zero. cbv [quaternion].
      assert (D : forall u, mul T k u = zero T -> u = zero T) by (intros u E; replace u with (div T (mul T k u) k) by (field; exact K); rewrite E; field; exact K).
      rewrite (D _ C1), (D _ C2), (D _ C3), (D _ C4). reflexivity. }
    rewrite <- sq_norm in N, N2. unfold to_rotation_matrix. flat. parts; field; repeat split; nz.
  Qed.
  Lemma matrix_product : forall a b, norm T a <> zero T -> norm T b <> zero T ->
    to_rotation_matrix T (q_mul T a b) = product T (to_rotation_matrix T a) (to_rotation_matrix T b).
  Proof.
    intros [w [x y z]] [p [q r s]] N M. assert (K : norm T (q_mul T (Quat w (V3 x y z)) (Quat p (V3 q r s))) <> zero T).
    { rewrite norm_mul. intros C. apply N. transitivity (div T (mul T (norm T (Quat w (V3 x y z))) (norm T (Quat p (V3 q r s)))) (norm T (Quat p (V3 q r s)))); [field; exact M|].
      rewrite C. field. exact M. }
    rewrite <- sq_norm in N, M, K. unfold to_rotation_matrix. flat. parts; field; repeat split; nz.
  Qed.
  Lemma q_distr : forall a b c, q_mul T a (q_add T b c) = q_add T (q_mul T a b) (q_mul T a c) /\ q_mul T (q_add T a b) c = q_add T (q_mul T a c) (q_mul T b c).
  Proof. intros. flat. split; parts; ring. Qed.
  Lemma q_sub_ok : forall a b, q_sub T a b = q_add T a (q_opp T b) /\ q_add T (q_sub T a b) b = a.
  Proof. intros. flat. split; parts; ring. Qed.
  Lemma q_conj_mul : forall a b, q_conj T (q_mul T a b) = q_mul T (q_conj T b) (q_conj T a).
  Proof. intros. flat. parts; ring. Qed.
  Lemma one_one : forall x : F, mul T (mul T (one T) (one T)) x = x.
  Proof. intros. ring. Qed.
End Q.
