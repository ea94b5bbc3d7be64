(* Lemmas about the geometry of the trackball *)
From Coq Require Import ZArith List Lia Bool Ring Field.
From Verif Require Import MatrixModel MatrixSpec QuatModel QuatSpec QuatProofs QuatProofs2 CurveMemModel CurveMemSpec CurveMemProofs2 TrackGeoModel TrackGeoSpec ArrLib.
Import ListNotations.
Close Scope nat_scope.
Close Scope Z_scope.

Section G.
  Variable T : ops.
  Hypothesis OF : ordered_field T.
  Add Field fld : (of_field T OF).
  Notation F := (scalar T).
  Variable f : funcs T.
  Variable acos : F -> F.
  Hypothesis L : laws T f acos.
  Notation nneg x := (lt T x (zero T) = false).

  Ltac flat := repeat match goal with q : quat T |- _ => destruct q | v : vec3 T |- _ => destruct v end;
    cbv [scaled sum_of scalar_product vector_product rotated opposite on_sphere
      v_add v_sub v_opp v_mul_l v_mul_r v_div v_sq_sum v_dot v_cross square two q_w q_v v_x v_y v_z] in *.

  Lemma nneg_or : forall x, nneg x -> nonneg T x.
  Proof. intros x N. destruct (lt T (zero T) x) eqn:E; [right; exact E|]. left. apply (of_total T OF); assumption. Qed.
  Lemma or_nneg : forall x, nonneg T x -> nneg x.
  Proof.
    intros x [->|P]; [apply (of_irrefl T OF)|]. destruct (lt T x (zero T)) eqn:E; [|reflexivity].
    pose proof (of_trans T OF _ _ _ P E) as H. rewrite (of_irrefl T OF) in H. discriminate.
  Qed.
  Lemma sq_nneg : forall x, nneg (mul T x x).
  Proof. intros x. apply or_nneg, (square_nonneg T OF). Qed.
  Lemma add_nneg : forall x y, nneg x -> nneg y -> nneg (add T x y).
  Proof. intros x y X Y. apply or_nneg, (nonneg_add T OF); apply nneg_or; assumption. Qed.
  (* not (b < a) is 0 <= b - a *)
  Lemma le_sub : forall a b, lt T b a = false -> nneg (sub T b a).
  Proof.
    intros a b N. destruct (lt T (sub T b a) (zero T)) eqn:E; [|reflexivity]. pose proof (of_add T OF _ _ a E) as H.
    replace (add T (sub T b a) a) with b in H by ring. replace (add T (zero T) a) with a in H by ring. congruence.
  Qed.
  Lemma sub_le : forall a b, nneg (sub T b a) -> lt T b a = false.
  Proof.
    intros a b N. destruct (lt T b a) eqn:E; [|reflexivity]. pose proof (of_add T OF _ _ (opp T a) E) as H.
    replace (add T b (opp T a)) with (sub T b a) in H by ring. replace (add T a (opp T a)) with (zero T) in H by ring. congruence.
  Qed.
  Lemma pos_one : lt T (zero T) (one T) = true.
  Proof.
    pose proof (sq_nneg (one T)) as H. replace (mul T (one T) (one T)) with (one T) in H by ring. apply nneg_or in H. destruct H as [H|H]; [|exact H].
    exfalso. apply (F_1_neq_0 (of_field T OF)). exact H.
  Qed.
  Lemma pos_nz : forall x, lt T (zero T) x = true -> x <> zero T.
  Proof. intros x P ->. rewrite (of_irrefl T OF) in P. discriminate. Qed.
  Lemma pos_nneg : forall x, lt T (zero T) x = true -> nneg x.
  Proof. intros x P. apply or_nneg. right. exact P. Qed.

  (* A product of two nonnegative roots *)
  Lemma root_one : forall r, nneg r -> mul T r r = one T -> r = one T.
  Proof.
    intros r N E. assert (P : mul T (sub T r (one T)) (add T r (one T)) = zero T) by (transitivity (sub T (mul T r r) (one T)); [ring|rewrite E; ring]).
    assert (M : add T r (one T) <> zero T).
    { apply pos_nz. replace (add T r (one T)) with (add T (one T) r) by ring. apply (pos_add T OF); [exact pos_one|apply nneg_or, N]. }
    transitivity (add T (div T (mul T (sub T r (one T)) (add T r (one T))) (add T r (one T))) (one T)); [field; exact M|]. rewrite P. field. exact M.
  Qed.

  (* Points on the ball *)
  Lemma ball_point : forall (b : ball T) pos, g_horz b <> zero T -> g_vert b <> zero T ->
    let px := div T (sub T (fst pos) (fst (g_half b))) (g_horz b) in
    let py := div T (sub T (snd (g_half b)) (snd pos)) (g_vert b) in
    let s := add T (mul T px px) (mul T py py) in
    let p := get_ball_point T f b pos in
    on_sphere T p /\ nneg (v_z p) /\ (lt T (one T) s = false -> v_x p = px /\ v_y p = py) /\
    (lt T (one T) s = true -> v_z p = zero T /\ exists k, lt T (zero T) k = true /\ mul T (mul T k k) s = one T /\ v_x p = mul T k px /\ v_y p = mul T k py).
  Proof.
    intros b pos H V px py s p. subst p. unfold get_ball_point. fold px py.
    replace (add T (add T (zero T) (square T px)) (square T py)) with s by (unfold s, square; ring).
    destruct (lt T (one T) s) eqn:E.
    - assert (Ps : lt T (zero T) s = true) by (exact (of_trans T OF _ _ _ pos_one E)).
      destruct (l_root T f acos L s (pos_nneg s Ps)) as [R RN]. unfold root_at in R.
      assert (Z0 : sub T (one T) (one T) = zero T) by ring. rewrite Z0.
      destruct (l_root T f acos L (zero T) (of_irrefl T OF _)) as [R0 _]. unfold root_at in R0. apply (square_zero T OF) in R0. rewrite R0.
      assert (Nr : f_sqrt f s <> zero T) by (intros C; rewrite C in R; apply (pos_nz s Ps); rewrite <- R; ring).
      assert (Pr : lt T (zero T) (f_sqrt f s) = true) by (apply nneg_or in RN; destruct RN as [RN|RN]; [contradiction|exact RN]).
      unfold on_sphere. cbn [v_x v_y v_z]. split; [|split; [apply (of_irrefl T OF)|split; [discriminate|]]].
      + transitivity (div T s (mul T (f_sqrt f s) (f_sqrt f s))); [unfold scalar_product; cbn [v_x v_y v_z]; unfold s at 5; field; exact Nr|rewrite R; field; apply pos_nz, Ps].
      + intros _. split; [reflexivity|]. exists (div T (one T) (f_sqrt f s)). split; [|split; [|split; field; exact Nr]].
        * destruct (lt T (zero T) (div T (one T) (f_sqrt f s))) eqn:K; [reflexivity|].
          assert (Nn : div T (one T) (f_sqrt f s) <> zero T).
          { intros C. apply (F_1_neq_0 (of_field T OF)). transitivity (mul T (div T (one T) (f_sqrt f s)) (f_sqrt f s)); [field; exact Nr|]. rewrite C. ring. }
          pose proof (square_pos T OF _ Nn) as Q. pose proof (of_mul T OF _ _ Pr Q) as W.
          replace (mul T (f_sqrt f s) (mul T (div T (one T) (f_sqrt f s)) (div T (one T) (f_sqrt f s)))) with (div T (one T) (f_sqrt f s)) in W by (field; exact Nr). congruence.
        * transitivity (div T s (mul T (f_sqrt f s) (f_sqrt f s))); [field; exact Nr|rewrite R; field; apply pos_nz, Ps].
    - destruct (l_root T f acos L _ (le_sub s (one T) E)) as [R RN]. unfold root_at in R. unfold on_sphere, scalar_product. cbn [v_x v_y v_z].
      split; [|split; [exact RN|split; [auto|discriminate]]]. rewrite R. unfold s. ring.
  Qed.

  (* calc_rotation() *)
  Lemma lagrange : forall a b, on_sphere T a -> on_sphere T b -> v_sq_sum T (v_cross T a b) = sub T (one T) (mul T (v_dot T a b) (v_dot T a b)).
  Proof.
    intros a b A B. transitivity (sub T (mul T (scalar_product T a a) (scalar_product T b b)) (mul T (v_dot T a b) (v_dot T a b))); [clear -OF; flat; ring|]. rewrite A, B. ring.
  Qed.
  Lemma dot_range : forall a b, on_sphere T a -> on_sphere T b -> lt T (v_dot T a b) (opp T (one T)) = false /\ lt T (one T) (v_dot T a b) = false.
  Proof.
    intros a b A B. assert (W : forall k, mul T k k = one T -> nneg (add T (one T) (mul T k (v_dot T a b)))).
    { intros k K. set (w := sum_of T a (scaled T k b)). assert (N : nneg (scalar_product T w w)).
      { unfold scalar_product. apply add_nneg; [apply add_nneg|]; apply sq_nneg. }
      assert (E : scalar_product T w w = mul T (two T) (add T (one T) (mul T k (v_dot T a b)))).
      { transitivity (add T (add T (scalar_product T a a) (mul T (mul T k k) (scalar_product T b b))) (mul T (two T) (mul T k (v_dot T a b)))); [unfold w; clear -OF; flat; ring|].
        rewrite A, B, K. unfold two. ring. }
      rewrite E in N. destruct (lt T (add T (one T) (mul T k (v_dot T a b))) (zero T)) eqn:G; [|reflexivity]. exfalso.
      pose proof (of_add T OF _ _ (add T (one T) (mul T k (v_dot T a b))) G) as H.
      replace (add T (add T (one T) (mul T k (v_dot T a b))) (add T (one T) (mul T k (v_dot T a b)))) with (mul T (two T) (add T (one T) (mul T k (v_dot T a b)))) in H by (unfold two; ring).
      replace (add T (zero T) (add T (one T) (mul T k (v_dot T a b)))) with (add T (one T) (mul T k (v_dot T a b))) in H by ring.
      rewrite (of_trans T OF _ _ _ H G) in N. discriminate. }
    split; apply sub_le.
    - replace (sub T (v_dot T a b) (opp T (one T))) with (add T (one T) (mul T (one T) (v_dot T a b))) by ring. apply W. ring.
    - replace (sub T (one T) (v_dot T a b)) with (add T (one T) (mul T (opp T (one T)) (v_dot T a b))) by ring. apply W. ring.
  Qed.

  Lemma no_rotation_unit : unit_axis T (no_rotation T).
  Proof. unfold unit_axis. cbn [no_rotation r_axis]. unfold scalar_product. cbn [v_x v_y v_z]. ring. Qed.
  Lemma no_rotation_turned : forall v, turned T f (no_rotation T) v = v.
  Proof. intros v. destruct (l_zero T f acos L) as [Z1 Z2]. unfold turned. cbn [no_rotation r_axis r_angle]. rewrite Z1, Z2. flat. f_equal; ring. Qed.

  Lemma calc_unit : forall a b, unit_axis T (calc_rotation T f acos a b).
  Proof.
    intros a b. unfold calc_rotation. destruct (eqb T (v_sq_sum T (v_cross T a b)) (zero T)) eqn:E; [apply no_rotation_unit|]. cbn [negb andb].
    destruct (lt T (one T) (v_dot T a b)); [apply no_rotation_unit|]. cbn [negb].
    assert (N : v_sq_sum T (v_cross T a b) <> zero T) by (intros C; apply (of_eqb T OF) in C; congruence).
    set (x := v_cross T a b) in *. assert (P : nneg (v_sq_sum T x)).
    { unfold v_sq_sum, square. repeat apply add_nneg; try apply sq_nneg. apply (of_irrefl T OF). }
    destruct (l_root T f acos L _ P) as [R _]. unfold root_at in R. unfold unit_axis. cbn [r_axis].
    assert (Nr : f_sqrt f (v_sq_sum T x) <> zero T) by (intros C; rewrite C in R; apply N; rewrite <- R; ring).
    transitivity (div T (v_sq_sum T x) (mul T (f_sqrt f (v_sq_sum T x)) (f_sqrt f (v_sq_sum T x)))); [|rewrite R; field; exact N].
    revert Nr. generalize (f_sqrt f (v_sq_sum T x)). clear -OF. intros r Nr. flat. field. exact Nr.
  Qed.

  Lemma sq_one : forall d, mul T d d = one T -> d = one T \/ d = opp T (one T).
  Proof.
    intros d E. destruct (zero_dec T OF (sub T d (one T))) as [Z|N].
    - left. transitivity (add T (sub T d (one T)) (one T)); [ring|rewrite Z; ring].
    - right. assert (P : mul T (sub T d (one T)) (add T d (one T)) = zero T) by (transitivity (sub T (mul T d d) (one T)); [ring|rewrite E; ring]).
      transitivity (sub T (div T (mul T (sub T d (one T)) (add T d (one T))) (sub T d (one T))) (one T)); [field; exact N|rewrite P; field; exact N].
  Qed.
  Lemma same_point : forall a b k, on_sphere T a -> on_sphere T b -> mul T k k = one T -> v_dot T a b = k -> b = scaled T k a.
  Proof.
    intros a b k A B K D. set (w := v_sub T b (scaled T k a)). assert (E : v_sq_sum T w = zero T).
    { transitivity (sub T (add T (scalar_product T b b) (mul T (mul T k k) (scalar_product T a a))) (mul T (two T) (mul T k (v_dot T a b)))); [unfold w; clear -OF; flat; ring|].
      rewrite A, B, D, K. unfold two. ring. }
    apply (v_sq_zero T OF) in E. transitivity (v_add T w (scaled T k a)); [unfold w; clear -OF; flat; f_equal; ring|]. rewrite E. clear -OF. flat. f_equal; ring.
  Qed.

  Lemma calc_turned : forall a b, on_sphere T a -> on_sphere T b -> b <> opposite T a -> turned T f (calc_rotation T f acos a b) a = b.
  Proof.
    intros a b A B O. pose proof (lagrange a b A B) as LG. destruct (dot_range a b A B) as [D1 D2]. unfold calc_rotation. rewrite D2. cbn [negb]. rewrite andb_true_r.
    destruct (eqb T (v_sq_sum T (v_cross T a b)) (zero T)) eqn:E; cbn [negb].
    - apply (of_eqb T OF) in E. rewrite no_rotation_turned. rewrite E in LG.
      assert (D : mul T (v_dot T a b) (v_dot T a b) = one T) by (transitivity (sub T (one T) (sub T (one T) (mul T (v_dot T a b) (v_dot T a b)))); [ring|rewrite <- LG; ring]).
      destruct (sq_one _ D) as [K|K].
      + rewrite (same_point a b _ A B D eq_refl), K. clear -OF. flat. f_equal; ring.
      + exfalso. apply O. rewrite (same_point a b _ A B D eq_refl), K. clear -OF. flat. f_equal; ring.
    - assert (N : v_sq_sum T (v_cross T a b) <> zero T) by (intros C; apply (of_eqb T OF) in C; congruence).
      destruct (l_acos T f acos L _ D1 D2) as [C1 C2]. unfold turned. cbn [r_axis r_angle]. rewrite C1, C2, <- LG.
      assert (P : nneg (v_sq_sum T (v_cross T a b))).
      { unfold v_sq_sum, square. repeat apply add_nneg; try apply sq_nneg. apply (of_irrefl T OF). }
      destruct (l_root T f acos L _ P) as [R _]. unfold root_at in R.
      assert (Nr : f_sqrt f (v_sq_sum T (v_cross T a b)) <> zero T) by (intros C; rewrite C in R; apply N; rewrite <- R; ring).
      revert Nr. generalize (f_sqrt f (v_sq_sum T (v_cross T a b))). intros r Nr. clear -OF A B Nr. unfold on_sphere in A.
      (* d a + (a x b) x a = d a + (a.a) b - (a.b) a = b *)
      transitivity (scaled T (scalar_product T a a) b); [|rewrite A; clear -OF; flat; f_equal; ring]. clear A B. flat. f_equal; field; exact Nr.
  Qed.

  (* With the laws, the sum of rotations is always the first one followed by the second one *)
  Lemma convertible_always : forall q, convertible T f q.
  Proof.
    intros [a [b c d]]. cbn [convertible]. set (s := add T (add T (mul T b b) (mul T c c)) (mul T d d)).
    assert (Ns : nneg s) by (unfold s; repeat apply add_nneg; apply sq_nneg).
    assert (Na : nneg (add T (mul T a a) s)) by (apply add_nneg; [apply sq_nneg|exact Ns]).
    destruct (l_root T f acos L _ Ns) as [R1 _]. destruct (l_root T f acos L _ Na) as [R2 N2]. split; [exact R1|]. split; [exact R2|].
    split; [|exact (l_zero T f acos L)]. apply (l_polar T f acos L); [exact N2|]. rewrite R1. exact R2.
  Qed.
  Lemma sum_turned : forall a b, unit_axis T a -> unit_axis T b -> unit_axis T (r_add T f a b) /\ forall v, turned T f (r_add T f a b) v = turned T f b (turned T f a v).
  Proof.
    intros a b A B. split; [apply (sum_ok T OF f a b (V3 (zero T) (zero T) (zero T)))|intros v; apply (sum_ok T OF f a b v)];
      try assumption; try apply (l_angle T f acos L); try apply convertible_always.
  Qed.
End G.
