(* Lemmas about matrices: triangular matrices, and sizes of the elements of L. *)
From Coq Require Import Arith Bool List Lia Field.
From Verif Require Import MatrixModel MatrixSpec MatrixProofs MatrixProofs2 ArrLib.
Import ListNotations.

Lemma up_ret_inv {S R} (I : nat -> S -> Prop) (Q : R -> Prop) body : forall n i s, I i s ->
  (forall k s, i <= k < i + n -> I k s ->
    (exists s', body k s = Some (inl s') /\ I (k + 1) s') \/ (exists r, body k s = Some (inr r) /\ Q r)) ->
  (exists s', up_ret i n body s = Some (inl s') /\ I (i + n) s') \/ (exists r, up_ret i n body s = Some (inr r) /\ Q r).
Proof.
  induction n as [|n IH]; intros i s Hi Hs; cbn [up_ret].
  - left. exists s. rewrite Nat.add_0_r. auto.
  - destruct (Hs i s) as [(s' & E & I')|(r & E & Hq)]; [lia|exact Hi| |]; rewrite E; cbn [obind].
    + rewrite Nat.add_1_r in I'. replace (i + Datatypes.S n) with (Datatypes.S i + n) by lia. apply IH; [exact I'|].
      intros k t Hk. apply Hs. lia.
    + right. exists r. auto.
Qed.

Section M.
  Variable T : ops.
  Notation F := (scalar T).
  Notation fmat := (nat -> nat -> F).
  Hypothesis OF : ordered_field T.
  Add Field fld : (of_field T OF).

  Notation "0" := (zero T).
  Notation "1" := (one T).
  Infix "+" := (add T).
  Infix "*" := (mul T).
  Infix "-" := (sub T).
  Notation "- x" := (opp T x).
  Infix "/" := (div T).
  Notation rep := (rep T).

  (* ---- order ---- *)

  Lemma neg_pos x : lt T x 0 = true -> lt T 0 (- x) = true.
  Proof.
    intros H. apply (of_add T OF) with (z := - x) in H.
    replace (x + - x) with 0 in H by ring. now replace (0 + - x) with (- x) in H by ring.
  Qed.
  Lemma pos_neg x : lt T 0 x = true -> lt T (- x) 0 = true.
  Proof.
    intros H. apply (of_add T OF) with (z := - x) in H.
    replace (x + - x) with 0 in H by ring. now replace (0 + - x) with (- x) in H by ring.
  Qed.
  Lemma lt_asym x y : lt T x y = true -> lt T y x = false.
  Proof.
    intros H. destruct (lt T y x) eqn:E; [|reflexivity].
    rewrite <- (of_irrefl T OF x). symmetry. apply (of_trans T OF _ _ _ H E).
  Qed.
  Lemma lt_0_1 : lt T 0 1 = true.
  Proof.
    destruct (lt T 0 1) eqn:E; [reflexivity|]. destruct (lt T 1 0) eqn:E2.
    - apply neg_pos in E2. pose proof (of_mul T OF _ _ E2 E2) as H.
      replace (- (1) * - (1)) with 1 in H by ring. congruence.
    - exfalso. apply (Field_theory.F_1_neq_0 (of_field T OF)). symmetry. now apply (of_total T OF).
  Qed.
  Lemma abs_pos x : x <> 0 -> lt T 0 (abs T x) = true.
  Proof.
    intros H. destruct (lt T 0 (abs T x)) eqn:E; [reflexivity|].
    exfalso. apply H, (abs_zero T OF). symmetry. apply (of_total T OF); [exact E|apply (abs_nonneg T OF)].
  Qed.
  Lemma abs_cases x : (lt T 0 x = true /\ abs T x = x) \/ (x = 0 /\ abs T x = 0) \/ (lt T x 0 = true /\ abs T x = - x).
  Proof.
    unfold abs. destruct (lt T x 0) eqn:E; [auto|]. destruct (lt T 0 x) eqn:E2; [auto|].
    right. left. assert (x = 0) by now apply (of_total T OF). auto.
  Qed.
  Lemma abs_of_pos x : lt T 0 x = true -> abs T x = x.
  Proof. intros H. unfold abs. now rewrite (lt_asym _ _ H). Qed.
  Lemma abs_of_neg x : lt T x 0 = true -> abs T x = - x.
  Proof. intros H. unfold abs. now rewrite H. Qed.
  Lemma abs_mul x y : abs T (x * y) = abs T x * abs T y.
  Proof.
    destruct (abs_cases x) as [(Hx & ->)|[(-> & ->)|(Hx & ->)]]; destruct (abs_cases y) as [(Hy & ->)|[(-> & ->)|(Hy & ->)]].
    - apply abs_of_pos. now apply (of_mul T OF).
    - replace (x * 0) with 0 by ring. apply (abs_of_zero T OF).
    - rewrite abs_of_neg; [ring|]. replace (x * y) with (- (x * - y)) by ring.
      apply pos_neg. apply (of_mul T OF); [assumption|now apply neg_pos].
    - replace (0 * y) with 0 by ring. apply (abs_of_zero T OF).
    - replace (0 * 0) with 0 by ring. apply (abs_of_zero T OF).
    - replace (0 * y) with 0 by ring. rewrite (abs_of_zero T OF). ring.
    - rewrite abs_of_neg; [ring|]. replace (x * y) with (- (- x * y)) by ring.
      apply pos_neg. apply (of_mul T OF); [now apply neg_pos|assumption].
    - replace (x * 0) with 0 by ring. rewrite (abs_of_zero T OF). ring.
    - replace (x * y) with (- x * - y) by ring. apply abs_of_pos.
      apply (of_mul T OF); now apply neg_pos.
  Qed.
  Lemma abs_quotient x y : y <> 0 -> lt T (abs T y) (abs T x) = false -> lt T 1 (abs T (x * (1 / y))) = false.
  Proof.
    intros Hy H. destruct (lt T 1 (abs T (x * (1 / y)))) eqn:E; [|reflexivity].
    rewrite <- H. symmetry. set (z := abs T (x * (1 / y))) in *.
    replace (abs T x) with (z * abs T y).
    - apply (of_add T OF) with (z := - (1)) in E. replace (1 + - (1)) with 0 in E by ring.
      pose proof (of_mul T OF _ _ E (abs_pos y Hy)) as P.
      apply (of_add T OF) with (z := abs T y) in P.
      replace (0 + abs T y) with (abs T y) in P by ring.
      now replace ((z + - (1)) * abs T y + abs T y) with (z * abs T y) in P by ring.
    - unfold z. rewrite <- abs_mul. f_equal. now field.
  Qed.

  (* no element of L is greater than 1 *)
  Lemma steps_small M a j ps f : steps T M a j ps f -> forall i k, (k < i < M)%nat -> (k < j)%nat -> (j <= M)%nat ->
    lt T 1 (abs T (f i k)) = false.
  Proof.
    induction 1 as [|j ps p f S IH Hp]; intros i k Hi Hk HM; [lia|].
    rewrite (step_pivoted T OF M j p f Hp). destruct Hp as (Hp1 & Hp2 & Hp3).
    assert (Hm : (j <= i)%nat -> (j <= perm j p i < M)%nat) by (unfold perm; bools).
    destruct (Nat.eq_dec k j) as [->|Hne].
    - pose proof (Hp2 (perm j p i) (Hm ltac:(lia))) as H2.
      assert (Hd : pivoted T j p f j j = f p j) by (unfold pivoted, perm; bools; reflexivity).
      unfold updated. rewrite Nat.ltb_irrefl, andb_false_r.
      destruct (eqb_spec' T OF (f p j) 0) as [Hz|Hz].
      + rewrite Hz, (abs_of_zero T OF) in H2. unfold pivoted.
        rewrite <- (of_total T OF _ _ H2 (abs_nonneg T OF _)). apply lt_asym, lt_0_1.
      + unfold scaled. rewrite Nat.eqb_refl, (proj2 (Nat.ltb_lt j i)) by lia. cbn [andb]. rewrite Hd.
        apply abs_quotient; assumption.
    - unfold updated. rewrite (proj2 (Nat.ltb_ge j k)), andb_false_r by lia.
      assert (G : lt T 1 (abs T (pivoted T j p f i k)) = false).
      { unfold pivoted. apply IH; try lia. unfold perm. bools. }
      destruct (eqb T (f p j) 0); [exact G|].
      unfold scaled. rewrite (proj2 (Nat.eqb_neq k j)), andb_false_r by lia. exact G.
  Qed.

  (* ---- inversion of triangular matrices ---- *)

  Definition ustep (u : bool) (j : nat) (h : fmat) : fmat :=
    let h1 := if u then h else upd T h j j (1 / h j j) in
    let x := if u then - (1) else - (1 / h j j) in
    fun i c => if (c =? j)%nat && (i <? j)%nat then x * sum T j (fun k => upper T u h1 i k * h1 k j) else h1 i c.

  Inductive usteps (u : bool) (f : fmat) : nat -> fmat -> Prop :=
  | usteps_0 : usteps u f 0 f
  | usteps_S : forall j h, usteps u f j h -> (u = false -> h j j <> 0) -> usteps u f (S j) (ustep u j h).

  (* the value computed for an element *)
  Lemma column_sum u N m h i j y0 : rep N N m h -> (i < j < N)%nat -> y0 = upper T u h i i * h i j ->
    loop (Nat.add i 1) j (fun k y =>
        let? a := mget T m i k in
        let? b := mget T m k j in
        Some (y + a * b)) y0 = Some (sum T j (fun k => upper T u h i k * h k j)).
  Proof.
    intros R Hi ->.
    match goal with |- loop _ _ ?body ?s = _ =>
      destruct (loop_inv (fun k y => y = sum T k (fun k => upper T u h i k * h k j)) body (Nat.add i 1) j s)
        as (y & E & ->); [lia| | |exact E] end.
    - rewrite Nat.add_1_r. cbn [sum]. rewrite sum_zero; [ring|exact OF|].
      intros k Hk. unfold upper. bools. ring.
    - intros k y Hk ->. rewrite (rep_get T N N m h i k R) by lia. cbn [obind].
      rewrite (rep_get T N N m h k j R) by lia. cbn [obind]. eexists. split; [reflexivity|].
      rewrite Nat.add_1_r. cbn [sum]. f_equal. unfold upper. bools. reflexivity.
  Qed.

  Lemma upper_column_ok u N m h j x : rep N N m h -> (j < N)%nat ->
    exists m', upper_column T u m j x = Some m' /\
    rep N N m' (fun i c => if (c =? j)%nat && (i <? j)%nat then x * sum T j (fun k => upper T u h i k * h k j) else h i c).
  Proof.
    intros R Hj. unfold upper_column.
    match goal with |- context [loop _ _ ?body _] =>
      destruct (loop_inv (fun r mr => rep N N mr (fun i c => if (c =? j)%nat && (i <? r)%nat
        then x * sum T j (fun k => upper T u h i k * h k j) else h i c)) body 0%nat j m) as (m' & E & R'); [lia| | |] end.
    - apply (rep_ext T N N m _ _ R). intros i c _ _. bools; reflexivity.
    - intros i mi Hi Ri. rewrite (rep_get T N N mi _ i j Ri) by lia. cbn [obind].
      set (hi := fun i0 c => if (c =? j)%nat && (i0 <? i)%nat then _ else _) in Ri.
      assert (Es : sum T j (fun k => upper T u hi i k * hi k j) = sum T j (fun k => upper T u h i k * h k j)).
      { apply sum_ext. intros k Hk. unfold upper, hi. bools; try reflexivity; destruct u; ring. }
      assert (Ey : exists y0, (if negb u then let? d := mget T mi i i in
          Some ((if (j =? j)%nat && (i <? i)%nat then x * sum T j (fun k => upper T u h i k * h k j) else h i j) * d)
        else Some (if (j =? j)%nat && (i <? i)%nat then x * sum T j (fun k => upper T u h i k * h k j) else h i j)) = Some y0 /\
          y0 = upper T u hi i i * hi i j).
      { destruct u; cbn [negb].
        - eexists. split; [reflexivity|]. unfold upper, hi. bools. ring.
        - rewrite (rep_get T N N mi hi i i Ri) by lia. cbn [obind]. eexists. split; [reflexivity|].
          unfold upper, hi. bools. ring. }
      destruct Ey as (y0 & Ey & Hy0).
      match goal with |- context [obind ?e _] => replace e with (Some y0) by (symmetry; exact Ey) end. cbn [obind].
      rewrite (column_sum u N mi hi i j y0 Ri) by (lia || assumption). cbn [obind]. rewrite Es.
      destruct (rep_set T N N mi hi i j (x * sum T j (fun k => upper T u h i k * h k j)) Ri) as (m' & S' & R'); [lia|lia|].
      exists m'. split; [exact S'|]. apply (rep_ext T N N m' _ _ R').
      intros r c Hr Hc. unfold upd, hi. bools; reflexivity.
    - exists m'. split; [exact E|exact R'].
  Qed.

  Lemma try_upper_ok u N m f : rep N N m f ->
    (exists m' h, try_upper_tri_inv T u N m = Some (true, m') /\ rep N N m' h /\ usteps u f N h) \/
    (u = false /\ exists m' h j, try_upper_tri_inv T u N m = Some (false, m') /\ is_matrix T N N m' /\
      (j < N)%nat /\ usteps u f j h /\ h j j = 0).
  Proof.
    intros R. unfold try_upper_tri_inv, finish, loop_ret. rewrite Nat.sub_0_r.
    match goal with |- context [up_ret _ _ ?body _] =>
      destruct (up_ret_inv (fun j mj => exists h, rep N N mj h /\ usteps u f j h)
        (fun r => u = false /\ exists m' h j, r = (false, m') /\ is_matrix T N N m' /\ (j < N)%nat /\ usteps u f j h /\ h j j = 0)
        body N 0%nat m) as [(m' & E & h & R' & U)|(r & E & Hu & m' & h & j & -> & Q)]; [| | | ] end.
    - exists f. split; [exact R|constructor].
    - intros j mj Hj (h & Rj & U). destruct u; cbn [negb].
      + left. destruct (upper_column_ok true N mj h j (- (1)) Rj ltac:(lia)) as (m' & E & R').
        rewrite E. cbn [obind]. exists m'. split; [reflexivity|].
        exists (ustep true j h). split; [exact R'|]. rewrite Nat.add_1_r. constructor; [exact U|discriminate].
      + rewrite (rep_get T N N mj h j j Rj) by lia. cbn [obind].
        destruct (eqb_spec' T OF (h j j) 0) as [Hz|Hz].
        * right. eexists. split; [reflexivity|]. split; [reflexivity|].
          exists mj, h, j. split; [reflexivity|]. split; [apply Rj|]. split; [lia|]. auto.
        * left. destruct (rep_set T N N mj h j j (1 / h j j) Rj) as (m1 & E1 & R1); [lia|lia|].
          rewrite E1. cbn [obind].
          destruct (upper_column_ok false N m1 _ j (- (1 / h j j)) R1 ltac:(lia)) as (m' & E & R').
          rewrite E. cbn [obind]. exists m'. split; [reflexivity|].
          exists (ustep false j h). split; [exact R'|]. rewrite Nat.add_1_r. constructor; auto.
    - left. exists m', h. split; [exact (f_equal (finish T) E)|auto].
    - right. split; [exact Hu|]. exists m', h, j. split; [exact (f_equal (finish T) E)|exact Q].
  Qed.

  (* The same for lower triangular matrices: everything is transposed. *)
  Definition tr (f : fmat) : fmat := fun i c => f c i.

  Lemma row_sum u N m h i j y0 : rep N N m (tr h) -> (i < j < N)%nat -> y0 = upper T u h i i * h i j ->
    loop (Nat.add i 1) j (fun k y =>
        let? a := mget T m k i in
        let? b := mget T m j k in
        Some (y + a * b)) y0 = Some (sum T j (fun k => upper T u h i k * h k j)).
  Proof.
    intros R Hi ->.
    match goal with |- loop _ _ ?body ?s = _ =>
      destruct (loop_inv (fun k y => y = sum T k (fun k => upper T u h i k * h k j)) body (Nat.add i 1) j s)
        as (y & E & ->); [lia| | |exact E] end.
    - rewrite Nat.add_1_r. cbn [sum]. rewrite sum_zero; [ring|exact OF|].
      intros k Hk. unfold upper. bools. ring.
    - intros k y Hk ->. rewrite (rep_get T N N m (tr h) k i R) by lia. cbn [obind].
      rewrite (rep_get T N N m (tr h) j k R) by lia. cbn [obind]. eexists. split; [reflexivity|].
      rewrite Nat.add_1_r. cbn [sum]. f_equal. unfold upper, tr. bools. reflexivity.
  Qed.

  Lemma lower_row_ok u N m h j x : rep N N m (tr h) -> (j < N)%nat ->
    exists m', lower_row T u m j x = Some m' /\
    rep N N m' (tr (fun i c => if (c =? j)%nat && (i <? j)%nat then x * sum T j (fun k => upper T u h i k * h k j) else h i c)).
  Proof.
    intros R Hj. unfold lower_row.
    match goal with |- context [loop _ _ ?body _] =>
      destruct (loop_inv (fun r mr => rep N N mr (tr (fun i c => if (c =? j)%nat && (i <? r)%nat
        then x * sum T j (fun k => upper T u h i k * h k j) else h i c))) body 0%nat j m) as (m' & E & R'); [lia| | |] end.
    - apply (rep_ext T N N m _ _ R). intros i c _ _. unfold tr. bools; reflexivity.
    - intros i mi Hi Ri. 
      set (hi := fun i0 c => if (c =? j)%nat && (i0 <? i)%nat then _ else _) in Ri.
      rewrite (rep_get T N N mi _ j i Ri) by lia. cbn [obind].
      assert (Es : sum T j (fun k => upper T u hi i k * hi k j) = sum T j (fun k => upper T u h i k * h k j)).
      { apply sum_ext. intros k Hk. unfold upper, hi. bools; try reflexivity; destruct u; ring. }
      assert (Ey : exists y0, (if negb u then let? d := mget T mi i i in Some (tr hi j i * d)
        else Some (tr hi j i)) = Some y0 /\ y0 = upper T u hi i i * hi i j).
      { destruct u; cbn [negb].
        - eexists. split; [reflexivity|]. unfold upper, hi, tr. bools. ring.
        - rewrite (rep_get T N N mi (tr hi) i i Ri) by lia. cbn [obind]. eexists. split; [reflexivity|].
          unfold upper, hi, tr. bools. ring. }
      destruct Ey as (y0 & Ey & Hy0). rewrite Ey. cbn [obind].
      rewrite (row_sum u N mi hi i j y0 Ri) by (lia || assumption). cbn [obind]. rewrite Es.
      destruct (rep_set T N N mi (tr hi) j i (x * sum T j (fun k => upper T u h i k * h k j)) Ri) as (m' & S' & R'); [lia|lia|].
      exists m'. split; [exact S'|]. apply (rep_ext T N N m' _ _ R').
      intros r c Hr Hc. unfold upd, hi, tr. bools; reflexivity.
    - exists m'. split; [exact E|exact R'].
  Qed.

  Lemma try_lower_ok u N m f : rep N N m f ->
    (exists m' h, try_lower_tri_inv T u N m = Some (true, m') /\ rep N N m' (tr h) /\ usteps u (tr f) N h) \/
    (u = false /\ exists m' h j, try_lower_tri_inv T u N m = Some (false, m') /\ is_matrix T N N m' /\
      (j < N)%nat /\ usteps u (tr f) j h /\ h j j = 0).
  Proof.
    intros R. unfold try_lower_tri_inv, finish, loop_ret. rewrite Nat.sub_0_r.
    match goal with |- context [up_ret _ _ ?body _] =>
      destruct (up_ret_inv (fun j mj => exists h, rep N N mj (tr h) /\ usteps u (tr f) j h)
        (fun r => u = false /\ exists m' h j, r = (false, m') /\ is_matrix T N N m' /\ (j < N)%nat /\ usteps u (tr f) j h /\ h j j = 0)
        body N 0%nat m) as [(m' & E & h & R' & U)|(r & E & Hu & m' & h & j & -> & Q)]; [| | | ] end.
    - exists (tr f). split; [exact R|constructor].
    - intros j mj Hj (h & Rj & U). destruct u; cbn [negb].
      + left. destruct (lower_row_ok true N mj h j (- (1)) Rj ltac:(lia)) as (m' & E & R').
        rewrite E. cbn [obind]. exists m'. split; [reflexivity|].
        exists (ustep true j h). split; [exact R'|]. rewrite Nat.add_1_r. constructor; [exact U|discriminate].
      + rewrite (rep_get T N N mj (tr h) j j Rj) by lia. cbn [obind].
        change (tr h j j) with (h j j).
        destruct (eqb_spec' T OF (h j j) 0) as [Hz|Hz].
        * right. eexists. split; [reflexivity|]. split; [reflexivity|].
          exists mj, h, j. split; [reflexivity|]. split; [apply Rj|]. split; [lia|]. auto.
        * left. destruct (rep_set T N N mj (tr h) j j (1 / h j j) Rj) as (m1 & E1 & R1); [lia|lia|].
          rewrite E1. cbn [obind].
          assert (R1' : rep N N m1 (tr (upd T h j j (1 / h j j)))).
          { apply (rep_ext T N N m1 _ _ R1). intros r c _ _. unfold upd, tr. bools; reflexivity. }
          destruct (lower_row_ok false N m1 _ j (- (1 / h j j)) R1' ltac:(lia)) as (m' & E & R').
          rewrite E. cbn [obind]. exists m'. split; [reflexivity|].
          exists (ustep false j h). split; [exact R'|]. rewrite Nat.add_1_r. constructor; auto.
    - left. exists m', h. split; [exact (f_equal (finish T) E)|auto].
    - right. split; [exact Hu|]. exists m', h, j. split; [exact (f_equal (finish T) E)|exact Q].
  Qed.

  (* elements that have not been reached, or are not part of the triangular matrix *)
  Lemma usteps_same u f j h : usteps u f j h -> forall i c,
    (j <= c \/ c < i \/ (u = true /\ c = i))%nat -> h i c = f i c.
  Proof.
    induction 1 as [|j h U IH Z]; intros i c H; [reflexivity|].
    unfold ustep. destruct u.
    - bools; apply IH; lia.
    - assert (H' : (S j <= c \/ c < i)%nat) by (destruct H as [H|[H|(H & _)]]; [lia|lia|discriminate]).
      unfold upd. bools; apply IH; lia.
  Qed.
  Lemma usteps_diag f j h : usteps false f j h -> forall k, (k < j)%nat -> f k k <> 0 /\ h k k = 1 / f k k.
  Proof.
    induction 1 as [|j h U IH Z]; intros k Hk; [lia|].
    assert (Hj : h j j = f j j) by (apply (usteps_same _ _ _ _ U); lia).
    unfold ustep, upd. destruct (Nat.eq_dec k j) as [->|Hne].
    - rewrite <- Hj. split; [now apply Z|]. bools. reflexivity.
    - bools. apply IH. lia.
  Qed.

  (* left inverse *)
  Lemma usteps_inv u f j h : usteps u f j h -> forall i c, (i < j)%nat -> (c < j)%nat ->
    mmul T j (upper T u h) (upper T u f) i c = ident T i c.
  Proof.
    induction 1 as [|j h U IH Z]; intros i c Hi Hc; [lia|].
    set (h1 := if u then h else upd T h j j (1 / h j j)).
    assert (Hf : forall r, (r <= j)%nat -> h r j = f r j) by (intros; apply (usteps_same _ _ _ _ U); lia).
    change (mmul T (S j) (upper T u (ustep u j h)) (upper T u f) i c) with
      (mmul T j (upper T u (ustep u j h)) (upper T u f) i c + upper T u (ustep u j h) i j * upper T u f j c).
    assert (E1 : forall k, (k < j)%nat -> upper T u (ustep u j h) i k = if (i <? j)%nat then upper T u h i k else 0).
    { intros k Hk. unfold upper, ustep, upd. destruct u; bools; reflexivity. }
    destruct (Nat.eq_dec i j) as [->|Hij].
    - (* last row *)
      unfold mmul. rewrite sum_zero; [|exact OF|].
      + unfold upper at 1, ustep, upd, ident. rewrite Nat.eqb_refl.
        destruct u; unfold upper; bools; try ring.
        rewrite Hf by lia. field. rewrite <- Hf by lia. now apply Z.
      + intros k Hk. rewrite E1 by lia. bools. ring.
    - rewrite (mmul_ext_l T j _ (upper T u h)) by (intros k Hk; rewrite E1 by lia; bools; reflexivity).
      destruct (Nat.eq_dec c j) as [->|Hcj].
      + (* last column *)
        assert (E2 : sum T j (fun k => upper T u h1 i k * h1 k j) = mmul T j (upper T u h) (upper T u f) i j).
        { apply sum_ext. intros k Hk. f_equal.
          - unfold h1, upper, upd. destruct u; bools; reflexivity.
          - unfold h1, upper, upd. destruct u; bools; apply Hf; lia. }
        unfold ident. rewrite (proj2 (Nat.eqb_neq i j)) by lia.
        unfold upper at 3, upper at 3, ustep. fold h1. bools. rewrite E2.
        destruct u; [ring|]. rewrite Hf by lia. field. rewrite <- Hf by lia. now apply Z.
      + rewrite IH by lia. unfold upper at 2. bools. ring.
  Qed.
End M.
