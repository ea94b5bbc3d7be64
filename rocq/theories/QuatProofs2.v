(* Lemmas about axes and angles *)
From Coq Require Import Bool Ring Field.
From Verif Require Import MatrixModel MatrixSpec QuatModel QuatSpec QuatProofs.

Section Q.
  Variable T : ops.
  Hypothesis OF : ordered_field T.
  Add Field fld : (of_field T OF).
  Notation F := (scalar T).
  Variable f : funcs T.

  Ltac flat := repeat match goal with q : quat T |- _ => destruct q | v : vec3 T |- _ => destruct v end;
    cbv [q_mul q_add q_sub q_opp q_conj q_conj_by v_conj_by q_scalar q_sq_sum q_inv q_div hamilton times norm quaternion scaled sum_of scalar_product vector_product rotated
      apply transposed product identity determinant v_add v_sub v_opp v_mul_l v_mul_r v_div v_sq_sum v_dot v_cross square two q_w q_v v_x v_y v_z] in *.
  Ltac parts := repeat match goal with |- Quat _ _ = Quat _ _ => f_equal | |- V3 _ _ _ = V3 _ _ _ => f_equal | |- (_, _) = (_, _) => f_equal end.
  Ltac nz := match goal with N : _ <> _ |- _ <> _ => first [exact N|let C := fresh in intros C; apply N; refine (eq_trans _ C); ring] end.

  Lemma two_not : add T (one T) (one T) <> zero T.
  Proof. exact (two_nonzero T OF). Qed.

  Lemma versor_rotates : forall (axis : vec3 T) c s v, scalar_product T axis axis = one T -> add T (mul T c c) (mul T s s) = one T ->
    v_conj_by T v (Quat c (v_mul_r T axis s)) = rotated T axis (sub T (mul T c c) (mul T s s)) (mul T (add T (one T) (one T)) (mul T s c)) v /\
    norm T (Quat c (v_mul_r T axis s)) = one T.
  Proof.
    intros [x y z] c s [p q r] U C. flat.
    assert (U2 : mul T x x = sub T (sub T (one T) (mul T y y)) (mul T z z)) by (rewrite <- U; ring).
    assert (C2 : mul T c c = sub T (one T) (mul T s s)) by (rewrite <- C; ring).
    split; [parts; ring [U2 C2]|ring [U2 C2]].
  Qed.

  Lemma from_axis_cos_ok : forall axis c, root_at T f (div T (add T c (one T)) (add T (one T) (one T))) -> root_at T f (div T (sub T (one T) c) (add T (one T) (one T))) ->
    from_axis_cos_angle T f axis c = Quat (f_sqrt f (div T (add T c (one T)) (add T (one T) (one T)))) (v_mul_r T axis (f_sqrt f (div T (sub T (one T) c) (add T (one T) (one T))))).
  Proof.
    intros axis c R1 R2. unfold from_axis_cos_angle. fold (two T). replace (sub T (div T (add T c (one T)) (two T)) c) with (div T (sub T (one T) c) (two T)) by (unfold two; field; exact two_not).
    flat. parts; ring.
  Qed.

  Lemma cos_sin : forall c, root_at T f (div T (add T c (one T)) (add T (one T) (one T))) -> root_at T f (div T (sub T (one T) c) (add T (one T) (one T))) ->
    let r := f_sqrt f (div T (add T c (one T)) (add T (one T) (one T))) in
    let s := f_sqrt f (div T (sub T (one T) c) (add T (one T) (one T))) in
    add T (mul T r r) (mul T s s) = one T /\ sub T (mul T r r) (mul T s s) = c /\
    add T (mul T c c) (mul T (mul T (add T (one T) (one T)) (mul T s r)) (mul T (add T (one T) (one T)) (mul T s r))) = one T.
  Proof.
    intros c R1 R2 r s. unfold root_at in *. fold r in R1. fold s in R2. split; [rewrite R1, R2; field; exact two_not|]. split; [rewrite R1, R2; field; exact two_not|].
    transitivity (add T (mul T c c) (mul T (mul T (add T (one T) (one T)) (add T (one T) (one T))) (mul T (mul T s s) (mul T r r)))); [ring|]. rewrite R1, R2. field. exact two_not.
  Qed.

  Lemma half_twice : forall x, div T (mul T (two T) x) (two T) = x.
  Proof. intros x. unfold two. field. exact two_not. Qed.
  Lemma half_of : forall x, mul T (div T (one T) (two T)) x = div T x (two T).
  Proof. intros x. unfold two. field. exact two_not. Qed.

  Lemma euler_ok : forall a b g, from_proper_euler_angles T f a b g =
    q_mul T (q_mul T (from_axis_angle T f (V3 (zero T) (zero T) (one T)) a) (from_axis_angle T f (V3 (one T) (zero T) (zero T)) b)) (from_axis_angle T f (V3 (zero T) (zero T) (one T)) g).
  Proof. intros a b g. unfold from_proper_euler_angles, from_axis_angle. rewrite !half_of. generalize (div T a (two T)) (div T b (two T)) (div T g (two T)). intros. flat. parts; ring. Qed.

  Lemma v_sq_ok : forall v : vec3 T, v_sq_sum T v = scalar_product T v v.
  Proof. intros. flat. ring. Qed.

  Lemma convert_ok : forall q, convertible T f q ->
    unit_axis T (from_versor T f q) /\
    (q_v q <> V3 (zero T) (zero T) (zero T) -> to_versor T f (from_versor T f q) = q_normalize T f q) /\
    (norm T q <> zero T -> forall x, scaled T (norm T q) (v_conj_by T x (to_versor T f (from_versor T f q))) = v_conj_by T x q) /\
    norm T (to_versor T f (from_versor T f q)) = one T.
  Proof.
    intros [w v] C. unfold from_versor, to_axis_angle. cbn [q_w q_v]. destruct (eqb T (v_sq_sum T v) (zero T)) eqn:E; cbn [negb].
    - apply (of_eqb T OF) in E. apply (v_sq_zero T OF) in E. subst v. cbn [convertible] in C. destruct C as (_ & _ & _ & Z1 & Z2).
      assert (Ev : to_versor T f (Rotation (V3 (one T) (zero T) (zero T)) (zero T)) = q_scalar T (one T)).
      { unfold to_versor, from_axis_angle. cbn [r_axis r_angle]. replace (div T (zero T) (two T)) with (zero T) by (unfold two; field; exact two_not).
        rewrite Z1, Z2. flat. parts; ring. }
      rewrite Ev. split; [unfold unit_axis; cbn [r_axis]; flat; ring|]. split; [intros N; contradiction N; reflexivity|]. split; [|flat; ring]. intros _ [p q r]. flat. parts; ring.
    - assert (N : v_sq_sum T v <> zero T) by (intros H; apply (of_eqb T OF) in H; congruence).
      destruct v as [b c d]. cbn [convertible] in C.
      assert (Es : v_sq_sum T (V3 b c d) = add T (add T (mul T b b) (mul T c c)) (mul T d d)) by (flat; ring).
      rewrite Es in *. set (s := add T (add T (mul T b b) (mul T c c)) (mul T d d)) in *. destruct C as (R1 & R2 & [P1 P2] & _). unfold root_at in *.
      set (l := f_sqrt f s) in *. set (n := f_sqrt f (add T (mul T w w) s)) in *.
      assert (Nl : l <> zero T) by (intros H; rewrite H in R1; apply N; rewrite <- R1; ring).
      assert (Nn : n <> zero T).
      { intros H. rewrite H in P2. apply Nl. rewrite <- P2. ring. }
      unfold to_versor, from_axis_angle. cbn [r_axis r_angle]. rewrite half_twice. set (al := f_atan2 f l w) in *.
      assert (Q1 : Quat w (V3 b c d) = times T n (Quat (f_cos f al) (v_mul_r T (v_div T (V3 b c d) l) (f_sin f al)))).
      { rewrite <- P1 at 1. flat. parts.
        - transitivity (mul T b (div T (mul T n (f_sin f al)) l)); [rewrite P2; field; exact Nl|field; exact Nl].
        - transitivity (mul T c (div T (mul T n (f_sin f al)) l)); [rewrite P2; field; exact Nl|field; exact Nl].
        - transitivity (mul T d (div T (mul T n (f_sin f al)) l)); [rewrite P2; field; exact Nl|field; exact Nl]. }
      assert (Ns : norm T (Quat w (V3 b c d)) = mul T n n) by (rewrite R2; unfold s; flat; ring).
      set (u := Quat (f_cos f al) (v_mul_r T (v_div T (V3 b c d) l) (f_sin f al))) in *.
      split; [|split; [|split]].
      + unfold unit_axis. cbn [r_axis]. transitivity (div T s (mul T l l)); [unfold s; flat; field; exact Nl|rewrite R1; field; exact N].
      + intros _. unfold q_normalize, q_len. replace (q_sq_sum T (Quat w (V3 b c d))) with (add T (mul T w w) s) by (unfold s; flat; ring). fold n. rewrite Q1.
        generalize u n Nn. clear -OF. intros u n Nn. assert (Nn2 : mul T n n <> zero T) by (intros H; apply Nn; apply (square_zero T OF); exact H). flat. parts; field; (split; nz) || nz.
      + intros Nq x. rewrite Ns, Q1. rewrite (v_conj_times T OF). reflexivity.
      + assert (K : mul T (mul T n n) (norm T u) = mul T n n).
        { rewrite <- Ns at 2. rewrite Q1. generalize u n. clear -OF. intros. flat. ring. }
        transitivity (div T (mul T (mul T n n) (norm T u)) (mul T n n)); [field; exact Nn|rewrite K; field; exact Nn].
  Qed.

  Lemma turned_versor : forall r v, unit_axis T r -> angle_at T f (r_angle r) -> turned T f r v = v_conj_by T v (to_versor T f r) /\ norm T (to_versor T f r) = one T.
  Proof.
    intros r v U (C & A1 & A2). unfold turned. rewrite A1, A2. destruct (versor_rotates (r_axis r) _ _ v U C) as [E1 E2]. split; [symmetry; exact E1|exact E2].
  Qed.

  Lemma scaled_one : forall v, scaled T (one T) v = v.
  Proof. intros. flat. parts; ring. Qed.

  Lemma sum_ok : forall a b v, unit_axis T a -> unit_axis T b -> angle_at T f (r_angle a) -> angle_at T f (r_angle b) ->
    convertible T f (q_mul T (to_versor T f b) (to_versor T f a)) -> angle_at T f (r_angle (r_add T f a b)) ->
    unit_axis T (r_add T f a b) /\ turned T f (r_add T f a b) v = turned T f b (turned T f a v).
  Proof.
    intros a b v Ua Ub Aa Ab C Ar. destruct (convert_ok _ C) as (U & _ & R & _). split; [exact U|].
    destruct (turned_versor a v Ua Aa) as [-> Na]. destruct (turned_versor b (v_conj_by T v (to_versor T f a)) Ub Ab) as [-> Nb].
    destruct (turned_versor (r_add T f a b) v U Ar) as [-> _]. rewrite (v_conj_product T OF).
    assert (N : norm T (q_mul T (to_versor T f b) (to_versor T f a)) = one T) by (rewrite (norm_mul T OF), Na, Nb; ring).
    rewrite N in R. rewrite <- R; [rewrite scaled_one; reflexivity|]. apply (F_1_neq_0 (of_field T OF)).
  Qed.

  Lemma opp_ok : forall a v, unit_axis T a -> circle_at T f (r_angle a) -> even_odd_at T f (r_angle a) -> turned T f (r_opp T a) (turned T f a v) = v.
  Proof.
    intros [[x y z] an] [p q r] U C [E1 E2]. unfold turned, unit_axis, circle_at, r_opp in *. cbn [r_axis r_angle] in *. rewrite E1, E2.
    revert C. generalize (f_cos f an) (f_sin f an). intros c s C. clear E1 E2. flat.
    assert (U2 : mul T x x = sub T (sub T (one T) (mul T y y)) (mul T z z)) by (rewrite <- U; ring).
    assert (C2 : mul T c c = sub T (one T) (mul T s s)) by (rewrite <- C; ring).
    parts; ring [U2 C2].
  Qed.
End Q.
