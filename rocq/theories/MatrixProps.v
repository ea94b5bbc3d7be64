(* Theorems about matrices. *)
From Coq Require Import ZArith QArith Qcanon Arith Bool List Lia Field.
From Verif Require Import MatrixModel MatrixSpec MatrixProofs MatrixProofs2 MatrixProofs3 MatrixProofs4 MatrixProofs5 ArrLib.
Import ListNotations.
Close Scope Q_scope.
Open Scope nat_scope.

(* ---- rational numbers as an instance, for the examples ---- *)

Definition rationals : ops := {|
  scalar := Qc;
  zero := Q2Qc 0; one := Q2Qc 1;
  add := Qcplus; mul := Qcmult; sub := Qcminus; opp := Qcopp; div := Qcdiv;
  eqb := Qc_eq_bool;
  lt := fun x y => match Qccompare x y with Lt => true | _ => false end |}.

Lemma rationals_lt x y : lt rationals x y = true <-> Qclt x y.
Proof.
  cbn [lt rationals]. rewrite Qclt_alt. destruct (Qccompare x y); split; intros H; discriminate || reflexivity.
Qed.

Lemma rationals_ordered_field : ordered_field rationals.
Proof.
  split.
  - cbn [rationals zero one add mul sub opp div]. split.
    + exact Qcrt.
    + discriminate.
    + intros p q. unfold Qcdiv. now rewrite Qcmult_1_l.
    + intros p Hp. unfold Qcdiv. rewrite Qcmult_1_l. now apply Qcmult_inv_l.
  - intros x y. cbn. split; [apply Qc_eq_bool_correct|]. intros ->. unfold Qc_eq_bool. now destruct (Qc_eq_dec y y).
  - intros x. destruct (lt rationals x x) eqn:E; [|reflexivity]. apply rationals_lt in E.
    exfalso. exact (Qlt_irrefl _ E).
  - intros x y z. rewrite !rationals_lt. apply Qclt_trans.
  - intros x y H1 H2. destruct (Qc_dec x y) as [[H|H]|H]; [| |exact H]; apply rationals_lt in H; congruence.
  - intros x y z. rewrite !rationals_lt. cbn [add rationals]. unfold Qclt, Qcplus. intros H. cbn [this Q2Qc].
    rewrite !Qred_correct. now apply Qplus_lt_l.
  - intros x y. rewrite !rationals_lt. cbn [mul zero rationals]. unfold Qclt, Qcmult. intros Hx Hy. cbn [this Q2Qc].
    rewrite (Qred_correct (x * y)). apply Qmult_lt_0_compat; assumption.
Qed.

Definition q (x : Z) : scalar rationals := Q2Qc (inject_Z x).

Section Props.
  Variable T : ops.
  Hypothesis OF : ordered_field T.
  Add Field fld : (of_field T OF).

  Lemma small x : lt T (one T) (abs T x) = false -> lt T (one T) x = false /\ lt T x (opp T (one T)) = false.
  Proof.
    intros H. pose proof (lt_0_1 T OF) as P.
    split; match goal with |- ?l = false => destruct l eqn:E; [exfalso|reflexivity] end.
    - rewrite (abs_of_pos T OF) in H by (exact (of_trans T OF _ _ _ P E)). congruence.
    - assert (N : lt T x (zero T) = true).
      { apply (of_trans T OF _ (opp T (one T))); [exact E|].
        apply (of_add T OF _ _ (opp T (one T))) in P.
        replace (add T (zero T) (opp T (one T))) with (opp T (one T)) in P by ring.
        replace (add T (one T) (opp T (one T))) with (zero T) in P by ring. exact P. }
      rewrite (abs_of_neg T) in H by exact N.
      apply (of_add T OF _ _ (sub T (one T) x)) in E.
      replace (add T x (sub T (one T) x)) with (one T) in E by ring.
      replace (add T (opp T (one T)) (sub T (one T) x)) with (opp T x) in E by ring. congruence.
  Qed.

  (* C123: LU decomposition *)
  Theorem decompose_exact M N a : is_matrix T M N a ->
    let n := Nat.min M N in
    exists b pivots, decompose T M N a = Some (b, pivots) /\ is_matrix T M N b /\
      length pivots = n /\ (forall k, k < n -> k <= nth k pivots 0 < M) /\
      let l := lower T true (entry T b) in
      let u := upper T false (entry T b) in
      meq T M N (entry T a) (mmul T M (perm_product T M 0 pivots) (mmul T n l u)) /\
      forall i k, k < i < M -> k < n -> lt T (one T) (l i k) = false /\ lt T (l i k) (opp T (one T)) = false.
  Proof.
    intros R n. apply rep_entry in R.
    destruct (decompose_ok T OF M N a _ R) as (b & ps & f & E & Rb & S).
    exists b, ps. pose proof (steps_length T _ _ _ _ _ S) as L. destruct (steps_bounds T _ _ _ _ _ S) as (B1 & B2).
    split; [exact E|]. split; [exact (proj1 Rb)|]. split; [exact L|]. split.
    { intros k Hk. split; [now apply B2|]. rewrite Forall_forall in B1. apply B1, nth_In. rewrite L. exact Hk. }
    fold n in S, L. assert (Hn : n <= M /\ n <= N) by lia. split.
    - intros i j Hi Hj.
      assert (B : Forall (fun p => p < M) ps) by exact B1.
      rewrite (perm_product_mul T OF) by (assumption || lia).
      assert (Hp : perms 0 ps i < M) by (apply perms_lt; (assumption || lia)).
      pose proof (steps_lu T OF M N _ n ps f S (proj1 Hn) (proj2 Hn) (perms 0 ps i) j Hp Hj) as E2.
      rewrite perms_inv_perms in E2. rewrite E2.
      replace ((n <=? perms 0 ps i) && (n <=? j)) with false
        by (symmetry; apply andb_false_iff; rewrite !Nat.leb_gt; lia).
      match goal with |- add T ?x (zero T) = _ => replace (add T x (zero T)) with x by ring end. unfold mmul. apply sum_ext. intros k Hk.
      unfold lpart, upart, lower, upper.
      rewrite !(rep_eq T M N b f) by (assumption || lia). reflexivity.
    - intros i k Hk Hk2. unfold lower. rewrite (proj2 (Nat.eqb_neq i k)) by lia. rewrite (proj2 (Nat.ltb_lt k i)) by lia.
      rewrite (rep_eq T M N b f) by (assumption || lia). apply small.
      apply (steps_small T OF M _ n ps f S); lia.
  Qed.

  (* C124: inversion of triangular matrices *)
  Theorem try_upper_tri_inv_exact unitri N a : is_matrix T N N a ->
    exists ok b, try_upper_tri_inv T unitri N a = Some (ok, b) /\ is_matrix T N N b /\
      (ok = true <-> unitri = true \/ forall k, k < N -> entry T a k k <> zero T) /\
      (ok = true ->
        inverse T N (upper T unitri (entry T a)) (upper T unitri (entry T b)) /\
        (forall i j, i < N -> j < i -> entry T b i j = entry T a i j) /\
        (unitri = true -> forall k, k < N -> entry T b k k = entry T a k k)).
  Proof.
    intros R. apply rep_entry in R.
    destruct (try_upper_ok T OF unitri N a _ R) as [(b & h & E & Rb & U)|(-> & b & h & j & E & Rb & Hj & U & Z)].
    - exists true, b. split; [exact E|]. split; [exact (proj1 Rb)|]. split.
      + split; [|reflexivity]. intros _. destruct unitri; [now left|right]. intros k Hk.
        exact (proj1 (usteps_diag T _ _ _ U k Hk)).
      + intros _. split; [|split].
        * destruct (upper_inverse T OF _ _ _ _ U) as (I1 & I2).
          assert (Hu : meq T N N (upper T unitri h) (upper T unitri (entry T b))).
          { intros i c Hi Hc. unfold upper. now rewrite (rep_eq T N N b h i c Rb Hi Hc). }
          split; intros i c Hi Hc; [rewrite <- (I1 i c Hi Hc)|rewrite <- (I2 i c Hi Hc)];
            unfold mmul; apply sum_ext; intros k Hk; now rewrite <- Hu.
        * intros i c Hi Hc. rewrite (rep_eq T N N b h) by (assumption || lia).
          apply (usteps_same T _ _ _ _ U). lia.
        * intros -> k Hk. rewrite (rep_eq T N N b h) by assumption. apply (usteps_same T _ _ _ _ U).
          right. right. now split.
    - exists false, b. split; [exact E|]. split; [exact Rb|]. split; [|discriminate].
      split; [discriminate|]. intros [H|H]; [discriminate|]. exfalso. apply (H j Hj).
      rewrite <- Z. symmetry. apply (usteps_same T _ _ _ _ U). now left.
  Qed.

  Theorem try_lower_tri_inv_exact unitri N a : is_matrix T N N a ->
    exists ok b, try_lower_tri_inv T unitri N a = Some (ok, b) /\ is_matrix T N N b /\
      (ok = true <-> unitri = true \/ forall k, k < N -> entry T a k k <> zero T) /\
      (ok = true ->
        inverse T N (lower T unitri (entry T a)) (lower T unitri (entry T b)) /\
        (forall i j, j < N -> i < j -> entry T b i j = entry T a i j) /\
        (unitri = true -> forall k, k < N -> entry T b k k = entry T a k k)).
  Proof.
    intros R. apply rep_entry in R.
    destruct (try_lower_ok T OF unitri N a _ R) as [(b & h & E & Rb & U)|(-> & b & h & j & E & Rb & Hj & U & Z)].
    - exists true, b. split; [exact E|]. split; [exact (proj1 Rb)|]. split.
      + split; [|reflexivity]. intros _. destruct unitri; [now left|right]. intros k Hk.
        exact (proj1 (usteps_diag T _ _ _ U k Hk)).
      + intros _. split; [|split].
        * destruct (lower_inverse T OF _ _ _ _ U) as (I1 & I2).
          assert (Hu : meq T N N (lower T unitri (tr T h)) (lower T unitri (entry T b))).
          { intros i c Hi Hc. unfold lower. now rewrite (rep_eq T N N b (tr T h) i c Rb Hi Hc). }
          split; intros i c Hi Hc; [rewrite <- (I1 i c Hi Hc)|rewrite <- (I2 i c Hi Hc)];
            unfold mmul; apply sum_ext; intros k Hk; now rewrite <- Hu.
        * intros i c Hi Hc. rewrite (rep_eq T N N b (tr T h)) by (assumption || lia).
          unfold tr. rewrite (usteps_same T _ _ _ _ U) by lia. reflexivity.
        * intros -> k Hk. rewrite (rep_eq T N N b (tr T h)) by assumption. unfold tr.
          rewrite (usteps_same T _ _ _ _ U); [reflexivity|].
          right. right. now split.
    - exists false, b. split; [exact E|]. split; [exact Rb|]. split; [|discriminate].
      split; [discriminate|]. intros [H|H]; [discriminate|]. exfalso. apply (H j Hj).
      rewrite <- Z. symmetry. rewrite (usteps_same T _ _ _ _ U) by (now left). reflexivity.
  Qed.

  Lemma regular_not_singular n a b : inverse T n a b -> ~ singular T n a.
  Proof.
    intros (_ & I) (x & (i & Hi & Hx) & Z). apply Hx.
    set (X := fun (k _ : nat) => x k).
    assert (E1 : mmul T n (mmul T n b a) X i 0 = x i).
    { transitivity (mmul T n (ident T) X i 0).
      - unfold mmul at 1 3. apply sum_ext. intros k Hk. now rewrite (I i k Hi Hk).
      - now rewrite (mmul_ident_l T OF). }
    rewrite <- E1, (mmul_assoc T OF). unfold mmul at 1. apply (sum_zero T OF). intros k Hk.
    replace (mmul T n a X k 0) with (zero T); [ring|]. symmetry. exact (Z k Hk).
  Qed.

  (* C125: inversion *)
  Theorem try_inv_exact N a : is_matrix T N N a ->
    exists ok b, try_inv T N a = Some (ok, b) /\ is_matrix T N N b /\
      (ok = true <-> ~ singular T N (entry T a)) /\
      (ok = true -> inverse T N (entry T a) (entry T b)).
  Proof.
    intros R. apply rep_entry in R.
    destruct (try_inv_ok T OF N a _ R) as [(b & y & E & Rb & I)|(b & E & Rb & Sg)].
    - exists true, b. split; [exact E|]. split; [exact (proj1 Rb)|]. split.
      + split; [|reflexivity]. intros _. exact (regular_not_singular _ _ _ I).
      + intros _. destruct I as (I1 & I2). 
        split; intros i c Hi Hc; [rewrite <- (I1 i c Hi Hc)|rewrite <- (I2 i c Hi Hc)];
            unfold mmul; apply sum_ext; intros k Hk; now rewrite (rep_eq T N N b y).
    - exists false, b. split; [exact E|]. split; [exact Rb|]. split; [|discriminate].
      split; [discriminate|]. intros H. contradiction.
  Qed.

  Theorem inv_exact N a : is_matrix T N N a ->
    exists b, inv T N a = Some b /\ is_matrix T N N b /\
      (~ singular T N (entry T a) -> inverse T N (entry T a) (entry T b)) /\
      (singular T N (entry T a) -> meq T N N (entry T b) (fun _ _ => zero T)).
  Proof.
    intros R. destruct (try_inv_exact N a R) as (ok & b & E & Rb & H1 & H2).
    unfold inv. rewrite E. cbn [obind]. destruct ok.
    - exists b. split; [reflexivity|]. split; [exact Rb|]. split; [now intros _; apply H2|].
      intros H. exfalso. now apply H1.
    - exists (repeat (repeat (zero T) N) N). split; [reflexivity|].
      pose proof (rep_repeat T N N) as Rz. split; [exact (proj1 Rz)|]. split.
      + intros H. apply H1 in H. discriminate.
      + intros _ i j Hi Hj. exact (rep_eq T N N _ _ i j Rz Hi Hj).
  Qed.

  (* C126: determinant *)
  Theorem det_exact N a : is_matrix T N N a -> det T N a = Some (determinant T N (entry T a)).
  Proof. intros R. apply (det_ok T OF), rep_entry, R. Qed.

  (* C127: products and quotients *)
  Theorem inner_mm_exact M N P a b : is_matrix T M N a -> is_matrix T N P b ->
    exists c, inner_mm T M N P a b = Some c /\ is_matrix T M P c /\
      meq T M P (entry T c) (mmul T N (entry T a) (entry T b)).
  Proof.
    intros Ra Rb. apply rep_entry in Ra, Rb.
    destruct (inner_mm_ok T M N P a b _ _ Ra Rb) as (c & E & Rc).
    exists c. split; [exact E|]. split; [exact (proj1 Rc)|]. intros i j Hi Hj. exact (rep_eq T M P c _ i j Rc Hi Hj).
  Qed.

  Theorem mat_div_exact M N a b : is_matrix T M N a -> is_matrix T N N b ->
    exists c, mat_div T M N a b = Some c /\ is_matrix T M N c /\
      (~ singular T N (entry T b) -> meq T M N (mmul T N (entry T c) (entry T b)) (entry T a)) /\
      (singular T N (entry T b) -> meq T M N (entry T c) (fun _ _ => zero T)).
  Proof.
    intros Ra Rb. destruct (inv_exact N b Rb) as (d & E & Rd & H1 & H2).
    unfold mat_div. rewrite E. cbn [obind].
    destruct (inner_mm_exact M N N a d Ra Rd) as (c & E2 & Rc & Hc).
    exists c. split; [exact E2|]. split; [exact Rc|]. split.
    - intros H. specialize (H1 H). destruct H1 as (_ & I). intros i j Hi Hj.
      transitivity (mmul T N (mmul T N (entry T a) (entry T d)) (entry T b) i j).
      { unfold mmul at 1 2. apply sum_ext. intros k Hk. now rewrite Hc. }
      rewrite (mmul_assoc T OF).
      transitivity (mmul T N (entry T a) (ident T) i j).
      { unfold mmul at 1 3. apply sum_ext. intros k Hk. now rewrite (I k j Hk Hj). }
      now rewrite (mmul_ident_r T OF).
    - intros H i j Hi Hj. rewrite Hc by assumption. unfold mmul. apply (sum_zero T OF). intros k Hk.
      rewrite (H2 H) by assumption. ring.
  Qed.
End Props.

(* ---- integers as the scalar type ---- *)

(* Division as for the integer types of C++ *)
Definition integers : ops := {|
  scalar := Z;
  zero := 0%Z; one := 1%Z;
  add := Z.add; mul := Z.mul; sub := Z.sub; opp := Z.opp; div := Z.quot;
  eqb := Z.eqb; lt := Z.ltb |}.

(* C126: the determinant of a matrix of integers *)
Theorem det_integer_refuted :
  ~ forall N a, is_matrix integers N N a -> det integers N a = Some (determinant integers N (entry integers a)).
Proof.
  intros H. specialize (H 2 [[2; 1]; [1; 1]]%Z).
  assert (I : is_matrix integers 2 2 [[2; 1]; [1; 1]]%Z) by (split; [reflexivity|repeat constructor]).
  specialize (H I). vm_compute in H. discriminate.
Qed.
Example det_integer_case : det integers 2 [[2; 1]; [1; 1]]%Z = Some 2%Z /\
  determinant integers 2 (entry integers [[2; 1]; [1; 1]]%Z) = 1%Z.
Proof. split; reflexivity. Qed.

(* ---- concrete cases ---- *)

Definition rmat (m : list (list Z)) : list (list (scalar rationals)) := map (map q) m.
Definition values (m : list (list Qc)) : list (list Q) := map (map this) m.

Example decompose_case :
  is_matrix rationals 3 2 (rmat [[1; 2]; [4; 4]; [2; 8]]%Z) /\
  match decompose rationals 3 2 (rmat [[1; 2]; [4; 4]; [2; 8]]%Z) with
  | Some (b, pivots) => values b = [[4; 4]; [1 # 2; 6]; [1 # 4; 1 # 6]]%Q /\ pivots = [1; 2]
  | None => False
  end.
Proof. split; [split; [reflexivity|repeat constructor]|vm_compute; split; reflexivity]. Qed.

Example try_upper_tri_inv_case :
  is_matrix rationals 2 2 (rmat [[2; 3]; [7; 4]]%Z) /\
  option_map (fun r => (fst r, values (snd r))) (try_upper_tri_inv rationals false 2 (rmat [[2; 3]; [7; 4]]%Z)) =
    Some (true, [[1 # 2; -3 # 8]; [7; 1 # 4]]%Q) /\
  option_map (fun r => (fst r, values (snd r))) (try_upper_tri_inv rationals true 2 (rmat [[2; 3]; [7; 4]]%Z)) =
    Some (true, [[2; -3]; [7; 4]]%Q) /\
  option_map fst (try_upper_tri_inv rationals false 2 (rmat [[2; 3]; [7; 0]]%Z)) = Some false.
Proof. split; [split; [reflexivity|repeat constructor]|vm_compute; repeat split]. Qed.

Example try_lower_tri_inv_case :
  is_matrix rationals 2 2 (rmat [[2; 7]; [3; 4]]%Z) /\
  option_map (fun r => (fst r, values (snd r))) (try_lower_tri_inv rationals false 2 (rmat [[2; 7]; [3; 4]]%Z)) =
    Some (true, [[1 # 2; 7]; [-3 # 8; 1 # 4]]%Q) /\
  option_map fst (try_lower_tri_inv rationals false 2 (rmat [[2; 7]; [3; 0]]%Z)) = Some false.
Proof. split; [split; [reflexivity|repeat constructor]|vm_compute; repeat split]. Qed.

Example try_inv_case :
  is_matrix rationals 3 3 (rmat [[0; 2; 0]; [4; 0; 0]; [1; 0; 1]]%Z) /\
  option_map (fun r => (fst r, values (snd r))) (try_inv rationals 3 (rmat [[0; 2; 0]; [4; 0; 0]; [1; 0; 1]]%Z)) =
    Some (true, [[0; 1 # 4; 0]; [1 # 2; 0; 0]; [0; -1 # 4; 1]]%Q) /\
  option_map fst (try_inv rationals 2 (rmat [[1; 2]; [2; 4]]%Z)) = Some false.
Proof. split; [split; [reflexivity|repeat constructor]|vm_compute; repeat split]. Qed.

Example inv_case :
  option_map values (inv rationals 2 (rmat [[1; 2]; [3; 4]]%Z)) = Some [[-2; 1]; [3 # 2; -1 # 2]]%Q /\
  option_map values (inv rationals 2 (rmat [[1; 2]; [2; 4]]%Z)) = Some [[0; 0]; [0; 0]]%Q /\
  singular rationals 2 (entry rationals (rmat [[1; 2]; [2; 4]]%Z)).
Proof.
  split; [vm_compute; reflexivity|]. split; [vm_compute; reflexivity|].
  exists (fun i => if i =? 0 then q 2 else q (-1)). split.
  - exists 0. split; [lia|discriminate].
  - intros [|[|i]] Hi; [| |lia]; apply Qc_is_canon; reflexivity.
Qed.

Example det_case : is_matrix rationals 3 3 (rmat [[0; 2; 5]; [4; 0; 1]; [1; 3; 1]]%Z) /\
  option_map this (det rationals 3 (rmat [[0; 2; 5]; [4; 0; 1]; [1; 3; 1]]%Z)) = Some (inject_Z 54).
Proof. split; [split; [reflexivity|repeat constructor]|vm_compute; reflexivity]. Qed.

Example inner_mm_case : is_matrix rationals 1 2 (rmat [[3; 5]]%Z) /\ is_matrix rationals 2 2 (rmat [[1; 2]; [3; 4]]%Z) /\
  option_map values (inner_mm rationals 1 2 2 (rmat [[3; 5]]%Z) (rmat [[1; 2]; [3; 4]]%Z)) = Some [[18; 26]]%Q /\
  option_map values (mat_div rationals 1 2 (rmat [[18; 26]]%Z) (rmat [[1; 2]; [3; 4]]%Z)) = Some [[3; 5]]%Q.
Proof. repeat split; try (repeat constructor); vm_compute; reflexivity. Qed.

Print Assumptions rationals_ordered_field.
Print Assumptions decompose_exact.
Print Assumptions try_upper_tri_inv_exact.
Print Assumptions try_lower_tri_inv_exact.
Print Assumptions try_inv_exact.
Print Assumptions inv_exact.
Print Assumptions det_exact.
Print Assumptions det_integer_refuted.
Print Assumptions inner_mm_exact.
Print Assumptions mat_div_exact.
