From Coq Require Import ZArith QArith Qround Qfield Lia Lqa List Bool.
From Verif Require Import HistogramModel HistogramSpec ArrLib.
Import ListNotations.
Local Open Scope Z_scope.

Lemma floor_ge (x : Q) (i : Z) : (inject_Z i <= x)%Q <-> i <= Qfloor x.
Proof.
  split; intros H.
  - apply Qfloor_resp_le in H. now rewrite Qfloor_Z in H.
  - apply Qle_trans with (inject_Z (Qfloor x)); [|apply Qfloor_le]. now rewrite <- Zle_Qle.
Qed.

Section Bins.
  Variables from to : Q.
  Variable n : nat.
  Hypothesis order : (from < to)%Q.
  Hypothesis some : (0 < n)%nat.

  Notation scale := (inject_Z (Z.of_nat n) / (to - from))%Q.

  Lemma n_pos : (0 < inject_Z (Z.of_nat n))%Q.
  Proof. change 0%Q with (inject_Z 0). rewrite <- Zlt_Qlt. lia. Qed.

  Lemma ratio (z : Z) : (z # Pos.of_nat n == inject_Z z / inject_Z (Z.of_nat n))%Q.
  Proof.
    rewrite Qmake_Qdiv. replace (Zpos (Pos.of_nat n)) with (Z.of_nat n); [reflexivity|]. rewrite <- positive_nat_Z, Nat2Pos.id by lia. reflexivity.
  Qed.

  (* The scaled value has reached i when the value has reached boundary i *)
  Lemma reached (v : Q) (i : nat) : (inject_Z (Z.of_nat i) <= scale * (v - from))%Q <-> (boundary from to n i <= v)%Q.
  Proof.
    unfold boundary. rewrite ratio. pose proof n_pos as P. set (N := inject_Z (Z.of_nat n)) in *. set (I := inject_Z (Z.of_nat i)).
    assert (W : (0 < to - from)%Q) by lra.
    assert (E1 : (N / (to - from) * (v - from) == (v - from) * N / (to - from))%Q) by (field; lra).
    rewrite E1.
    assert (A : (I <= (v - from) * N / (to - from) <-> I * (to - from) <= (v - from) * N)%Q).
    { split; intros H.
      - apply Qmult_le_compat_r with (z := (to - from)%Q) in H; [|lra]. setoid_replace ((v - from) * N / (to - from) * (to - from))%Q with ((v - from) * N)%Q in H by (field; lra). exact H.
      - apply Qle_shift_div_l; assumption. }
    rewrite A. assert (E2 : (from + (to - from) * (I / N) == (from * N + (to - from) * I) / N)%Q) by (field; lra). rewrite E2.
    split; intros H.
    - apply Qle_shift_div_r; [exact P|]. lra.
    - assert (H2 : ((from * N + (to - from) * I) / N * N <= v * N)%Q) by (apply Qmult_le_compat_r; lra).
      setoid_replace ((from * N + (to - from) * I) / N * N)%Q with (from * N + (to - from) * I)%Q in H2 by (field; lra). lra.
  Qed.

  Lemma boundary_0 : (boundary from to n 0 == from)%Q.
  Proof. unfold boundary. rewrite ratio. pose proof n_pos. change (inject_Z (Z.of_nat 0)) with 0%Q. field. lra. Qed.

  Lemma boundary_n : (boundary from to n n == to)%Q.
  Proof. unfold boundary. rewrite ratio. pose proof n_pos. field. lra. Qed.

  Notation pos v := (Qfloor (scale * (v - from))).

  Lemma pos_ge v i : Z.of_nat i <= pos v <-> (boundary from to n i <= v)%Q.
  Proof. now rewrite <- floor_ge, reached. Qed.

  Definition b2z (b : bool) : Z := if b then 1 else 0.

  Definition is_under v := less v from.
  Definition is_bin i v := Qle_bool (boundary from to n i) v && less v (boundary from to n (i + 1)).
  Definition is_over v := Qle_bool to v.

  Lemma Qle_bool_spec a b : Qle_bool a b = true <-> (a <= b)%Q.
  Proof. apply Qle_bool_iff. Qed.
  Lemma less_spec a b : less a b = true <-> (a < b)%Q.
  Proof.
    unfold less. rewrite negb_true_iff. split; intros H.
    - apply Qnot_le_lt. intros H2. apply Qle_bool_iff in H2. congruence.
    - destruct (Qle_bool b a) eqn:E; [|reflexivity]. apply Qle_bool_iff in E. lra.
  Qed.

  Lemma is_under_pos v : is_under v = (pos v <? 0).
  Proof.
    apply eq_true_iff_eq. unfold is_under. rewrite less_spec, Z.ltb_lt. pose proof (pos_ge v 0) as H. cbn [Z.of_nat] in H. rewrite boundary_0 in H.
    split; intros K.
    - destruct (Z.lt_ge_cases (pos v) 0); [assumption|]. assert (from <= v)%Q by (apply H; assumption). lra.
    - apply Qnot_le_lt. intros K2. apply H in K2. lia.
  Qed.

  Lemma is_over_pos v : is_over v = (Z.of_nat n <=? pos v).
  Proof. apply eq_true_iff_eq. unfold is_over. rewrite Qle_bool_spec, Z.leb_le, pos_ge, boundary_n. reflexivity. Qed.

  Lemma is_bin_pos i v : is_bin i v = (pos v =? Z.of_nat i).
  Proof.
    apply eq_true_iff_eq. unfold is_bin. rewrite andb_true_iff, Qle_bool_spec, less_spec, Z.eqb_eq, <- pos_ge. pose proof (pos_ge v (i + 1)) as H.
    split.
    - intros [A B]. destruct (Z.lt_ge_cases (pos v) (Z.of_nat (i + 1))) as [K|K]; [lia|]. apply H in K. lra.
    - intros E. split; [lia|]. apply Qnot_le_lt. intros K. apply H in K. lia.
  Qed.

  Lemma increment_at_map f i m s : (i < m)%nat -> f (s + i)%nat < 2 ^ 63 - 1 ->
    increment_at (map f (seq s m)) i = Some (map (fun j => f j + b2z (j =? s + i)%nat) (seq s m)).
  Proof.
    revert i s. induction m as [|m IH]; intros i s Hi Hf; [lia|]. destruct i as [|i]; cbn [seq map increment_at].
    - unfold increment. rewrite Nat.add_0_r in *. replace (f s <? 2 ^ 63 - 1) with true by lia. cbn [obind]. rewrite Nat.eqb_refl. f_equal. f_equal.
      apply map_ext_in. intros j Hj. apply in_seq in Hj. replace (j =? s)%nat with false by (symmetry; apply Nat.eqb_neq; lia). cbn. lia.
    - rewrite IH; [|lia|replace (S s + i)%nat with (s + S i)%nat by lia; exact Hf]. cbn [obind]. replace (s =? s + S i)%nat with false by (symmetry; apply Nat.eqb_neq; lia).
      f_equal. f_equal; [cbn; lia|]. apply map_ext. intros j. do 3 f_equal. lia.
  Qed.

  Variable digits : Z.
  Hypothesis precision : 24 <= digits <= 64.
  Hypothesis not_huge : Z.of_nat n <= 2 ^ 60.

  Lemma max_float_large : 2 ^ 60 <= max_float_for_size digits.
  Proof. unfold max_float_for_size. assert (2 ^ (64 - digits) <= 2 ^ 40) by (apply Z.pow_le_mono_r; lia). lia. Qed.

  Lemma add_step f u o k v : (forall i, f i <= k) -> u <= k -> o <= k -> k < 2 ^ 63 - 1 -> pos v < 2 ^ 64 ->
    hist_add digits (Hist from scale (map f (seq 0 n)) u o) v =
      Some (Hist from scale (map (fun i => f i + b2z (is_bin i v)) (seq 0 n)) (u + b2z (is_under v)) (o + b2z (is_over v))).
  Proof.
    intros Hf Hu Ho Hk Hv. unfold hist_add. cbn [h_base h_scale h_bins h_under h_over]. rewrite map_length, seq_length.
    pose proof max_float_large as Hm. rewrite is_under_pos, is_over_pos.
    assert (Hb : forall i, is_bin i v = (pos v =? Z.of_nat i)) by (intros; apply is_bin_pos).
    assert (Ez : Qle_bool 0 (scale * (v - from)) = (0 <=? pos v)).
    { apply eq_true_iff_eq. rewrite Qle_bool_spec, Z.leb_le. change 0%Q with (inject_Z 0). apply floor_ge. }
    rewrite Ez. destruct (Z.leb_spec 0 (pos v)) as [P|P].
    - replace (pos v <? 2 ^ 64) with true by lia. cbn [obind]. replace (pos v <? 0) with false by lia. cbn [b2z]. rewrite Z.add_0_r.
      destruct (Z.ltb_spec (pos v) (Z.of_nat n)) as [L|L].
      + replace (pos v <=? max_float_for_size digits) with true by lia. cbn [andb]. replace (Z.of_nat n <=? pos v) with false by lia. cbn [b2z]. rewrite Z.add_0_r.
        rewrite increment_at_map; [|lia|specialize (Hf (0 + Z.to_nat (pos v))%nat); lia]. cbn [obind]. do 2 f_equal. apply map_ext. intros j. rewrite Hb. do 2 f_equal.
        apply eq_true_iff_eq. rewrite Nat.eqb_eq, Z.eqb_eq. lia.
      + rewrite andb_false_r. replace (Z.of_nat n <=? pos v) with true by lia. cbn [b2z]. unfold increment. replace (o <? 2 ^ 63 - 1) with true by lia. cbn [obind].
        do 2 f_equal. apply map_ext_in. intros j Hj. apply in_seq in Hj. rewrite Hb. replace (pos v =? Z.of_nat j) with false by lia. cbn. lia.
    - unfold increment. replace (u <? 2 ^ 63 - 1) with true by lia. cbn [obind]. replace (pos v <? 0) with true by lia. replace (Z.of_nat n <=? pos v) with false by lia. cbn [b2z].
      rewrite Z.add_0_r. do 2 f_equal. apply map_ext. intros j. rewrite Hb. destruct (Z.eqb_spec (pos v) (Z.of_nat j)); cbn; lia.
  Qed.

  Lemma how_many_cons p v vals : how_many p (v :: vals) = b2z (p v) + how_many p vals.
  Proof. unfold how_many. cbn [filter]. destruct (p v); cbn [length b2z]; lia. Qed.

  Lemma b2z_range b : 0 <= b2z b <= 1.
  Proof. destruct b; cbn; lia. Qed.

  Lemma run_ok vals : forall f u o k, (forall i, f i <= k) -> u <= k -> o <= k -> k + Z.of_nat (length vals) < 2 ^ 63 -> Forall (fun v => pos v < 2 ^ 64) vals ->
    hist_run digits (Hist from scale (map f (seq 0 n)) u o) vals =
      Some (Hist from scale (map (fun i => f i + count_bin from to n i vals) (seq 0 n)) (u + count_under from vals) (o + count_over to vals)).
  Proof.
    induction vals as [|v vals IH]; intros f u o k Hf Hu Ho Hk Hv.
    - cbn [hist_run]. unfold count_bin, count_under, count_over, how_many. cbn [filter length]. rewrite !Z.add_0_r. do 2 f_equal. apply map_ext. intros. lia.
    - inversion Hv; subst. cbn [length] in Hk. cbn [hist_run]. rewrite (add_step _ _ _ k); try assumption; [|lia]. cbn [obind].
      rewrite (IH _ _ _ (k + 1)).
      + unfold count_bin, count_under, count_over. rewrite !how_many_cons. fold is_under is_over. rewrite !Z.add_assoc. do 2 f_equal. apply map_ext. intros j.
        rewrite how_many_cons. fold (is_bin j). fold (is_bin j v). lia.
      + intros i. pose proof (b2z_range (is_bin i v)). specialize (Hf i). lia.
      + pose proof (b2z_range (is_under v)). lia.
      + pose proof (b2z_range (is_over v)). lia.
      + lia.
      + assumption.
  Qed.

  Lemma sum_one (z : Z) m s : fold_right Z.add 0 (map (fun i => b2z (z =? Z.of_nat i)) (seq s m)) = b2z ((Z.of_nat s <=? z) && (z <? Z.of_nat (s + m))).
  Proof.
    revert s. induction m as [|m IH]; intros s; cbn [seq map fold_right].
    - destruct (Z.leb_spec (Z.of_nat s) z); destruct (Z.ltb_spec z (Z.of_nat (s + 0))); cbn; lia.
    - rewrite IH. destruct (Z.eqb_spec z (Z.of_nat s)); destruct (Z.leb_spec (Z.of_nat s) z); destruct (Z.leb_spec (Z.of_nat (S s)) z);
        destruct (Z.ltb_spec z (Z.of_nat (S s + m))); destruct (Z.ltb_spec z (Z.of_nat (s + S m))); cbn; lia.
  Qed.

  Lemma sum_add (f g : nat -> Z) l : fold_right Z.add 0 (map (fun i => f i + g i) l) = fold_right Z.add 0 (map f l) + fold_right Z.add 0 (map g l).
  Proof. induction l as [|x l IH]; cbn [map fold_right]; lia. Qed.

  Lemma total vals : count_under from vals + fold_right Z.add 0 (map (fun i => count_bin from to n i vals) (seq 0 n)) + count_over to vals = Z.of_nat (length vals).
  Proof.
    induction vals as [|v vals IH].
    - unfold count_under, count_over, count_bin, how_many. cbn [filter length].
      assert (E : forall l : list nat, fold_right Z.add 0 (map (fun _ => Z.of_nat 0) l) = 0) by (induction l; cbn in *; lia). rewrite E. reflexivity.
    - unfold count_bin, count_under, count_over in *. rewrite !how_many_cons. fold is_under is_over in *.
      erewrite (map_ext (fun i => how_many _ (v :: vals))) by (intros i; rewrite how_many_cons; fold (is_bin i); fold (is_bin i v); rewrite is_bin_pos; reflexivity).
      rewrite (sum_add (fun i => b2z (pos v =? Z.of_nat i))). fold (is_under v) (is_over v). rewrite sum_one, is_under_pos, is_over_pos. cbn [length]. unfold is_bin in *.
      assert (b2z (pos v <? 0) + b2z ((Z.of_nat 0 <=? pos v) && (pos v <? Z.of_nat (0 + n))) + b2z (Z.of_nat n <=? pos v) = 1).
      { destruct (Z.ltb_spec (pos v) 0); destruct (Z.leb_spec (Z.of_nat 0) (pos v)); destruct (Z.ltb_spec (pos v) (Z.of_nat (0 + n))); destruct (Z.leb_spec (Z.of_nat n) (pos v)); cbn; lia. }
      lia.
  Qed.

  Lemma not_undefined v : ((v - from) * inject_Z (Z.of_nat n) < inject_Z (2 ^ 64) * (to - from))%Q <-> pos v < 2 ^ 64.
  Proof.
    assert (A : 2 ^ 64 <= pos v <-> (inject_Z (2 ^ 64) * (to - from) <= (v - from) * inject_Z (Z.of_nat n))%Q).
    { rewrite <- floor_ge. set (N := inject_Z (Z.of_nat n)). set (B := inject_Z (2 ^ 64)).
      assert (E1 : (N / (to - from) * (v - from) == (v - from) * N / (to - from))%Q) by (field; lra). rewrite E1. split; intros H.
      - apply Qmult_le_compat_r with (z := (to - from)%Q) in H; [|lra]. setoid_replace ((v - from) * N / (to - from) * (to - from))%Q with ((v - from) * N)%Q in H by (field; lra). exact H.
      - apply Qle_shift_div_l; [lra|assumption]. }
    split; intros H.
    - destruct (Z.lt_ge_cases (pos v) (2 ^ 64)) as [K|K]; [assumption|]. apply A in K. apply Qle_not_lt in K. contradiction.
    - apply Qnot_le_lt. intros K. apply A in K. lia.
  Qed.
End Bins.
