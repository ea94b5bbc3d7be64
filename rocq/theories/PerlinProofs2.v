From Coq Require Import ZArith QArith Qround Qminmax Qfield Lia Lqa List Bool.
From Verif Require Import PerlinModel PerlinSpec PerlinProofs ArrLib.
Import ListNotations.
Local Open Scope Z_scope.

Lemma interpolate_fade i a b t : (interpolate i a b t == (1 - fade i t) * a + fade i t * b)%Q.
Proof. unfold interpolate, lerp, fade. destruct i; ring. Qed.

Lemma fade_comp i t t' : (t == t')%Q -> (fade i t == fade i t')%Q.
Proof. intros E. unfold fade. destruct i; rewrite E; reflexivity. Qed.

Lemma fade_0 i t : (t == 0)%Q -> (fade i t == 0)%Q.
Proof. intros E. rewrite (fade_comp i _ _ E). destruct i; reflexivity. Qed.

Lemma fade_1 i t : (t == 1)%Q -> (fade i t == 1)%Q.
Proof. intros E. rewrite (fade_comp i _ _ E). destruct i; reflexivity. Qed.

(* Sums *)
Lemma Qsum_app l m : (Qsum (l ++ m) == Qsum l + Qsum m)%Q.
Proof. induction l as [|x l IH]; cbn [app Qsum fold_right]; [unfold Qsum; cbn; ring|]. unfold Qsum in *. rewrite IH. ring. Qed.

Lemma Qsum_scale {A} (f : A -> Q) q l : (Qsum (map (fun x => q * f x) l) == q * Qsum (map f l))%Q.
Proof. induction l as [|x l IH]; unfold Qsum in *; cbn [map fold_right]; [ring|]. rewrite IH. ring. Qed.

Lemma Qsum_ext {A} (f g : A -> Q) l : (forall x, In x l -> (f x == g x)%Q) -> (Qsum (map f l) == Qsum (map g l))%Q.
Proof.
  intros H. induction l as [|x l IH]; unfold Qsum in *; cbn [map fold_right]; [reflexivity|]. rewrite (H x (or_introl eq_refl)), IH; [reflexivity|]. intros y Hy. apply H. now right.
Qed.

Lemma corners_length n c : In c (corners n) -> length c = n.
Proof.
  revert c. induction n as [|n IH]; intros c H; cbn [corners] in H; [destruct H as [<-|[]]; reflexivity|].
  apply in_app_iff in H. destruct H as [H|H]; apply in_map_iff in H; destruct H as (c' & <- & H); rewrite app_length, (IH _ H); cbn; lia.
Qed.

Lemma weight_snoc i : forall ts c b, (length c < length ts)%nat ->
  (corner_weight i ts (c ++ [b]) == corner_weight i ts c * (if b then fade i (nth (length c) ts 0) else 1 - fade i (nth (length c) ts 0)))%Q.
Proof.
  induction ts as [|t ts IH]; intros [|x c] b H; cbn [length] in *; try lia.
  - unfold corner_weight, Qprod. cbn [app combine map fold_right nth length]. destruct ts; cbn [combine map fold_right]; destruct b; ring.
  - unfold corner_weight, Qprod in *. cbn [app combine map fold_right nth length]. rewrite IH by lia. ring.
Qed.

Lemma nested_sum i ts F : forall k s, (k <= length ts)%nat ->
  (nested i ts F k s == Qsum (map (fun c => corner_weight i ts c * F (c ++ s)) (corners k)))%Q.
Proof.
  induction k as [|k IH]; intros s H; cbn [nested corners].
  - cbn [map app]. unfold Qsum, corner_weight, Qprod. cbn [fold_right]. destruct ts; cbn [combine map fold_right]; ring.
  - rewrite interpolate_fade, !IH by lia. rewrite map_app, Qsum_app, !map_map.
    assert (K : forall b, (Qsum (map (fun c => corner_weight i ts (c ++ [b]) * F ((c ++ [b]) ++ s)) (corners k)) ==
      (if b then fade i (nth k ts 0) else 1 - fade i (nth k ts 0)) * Qsum (map (fun c => corner_weight i ts c * F (c ++ b :: s)) (corners k)))%Q).
    { intros b. rewrite <- Qsum_scale. apply Qsum_ext. intros c Hc. apply corners_length in Hc. rewrite weight_snoc by lia. rewrite <- app_assoc. cbn [app]. rewrite Hc. ring. }
    rewrite (K false), (K true). reflexivity.
Qed.

(* Products *)
Lemma dot_product : forall a b, (dot a b == product a b)%Q.
Proof. induction a as [|x a IH]; intros [|y b]; unfold product, Qsum in *; cbn [dot combine map fold_right]; try reflexivity. rewrite IH. reflexivity. Qed.

Lemma dot_comp : forall g a b, Forall2 Qeq a b -> (dot g a == dot g b)%Q.
Proof. induction g as [|x g IH]; intros a b H; [reflexivity|]. inversion H as [|? ? ? ? E H']; subst; cbn [dot]; [reflexivity|]. rewrite E, (IH _ _ H'). reflexivity. Qed.

Lemma offset_from_vertex : forall ts c, Forall2 Qeq (offset ts c) (from_vertex ts c).
Proof.
  induction ts as [|t ts IH]; intros [|b c]; unfold from_vertex in *; cbn [offset combine map]; constructor; [|apply IH]. destruct b; cbn; ring.
Qed.

(* The choice of grid module does not matter *)
Section Choice.
  Variable i : interp.
  Variable g : list Z -> list Q.

  Definition F cell ts bits := dot (g (vertex cell bits)) (offset ts bits).

  Definition same_place (c1 : Z) (t1 : Q) (c2 : Z) (t2 : Q) : Prop :=
    (c1 = c2 /\ t1 == t2)%Q \/ (c2 = c1 + 1 /\ (t1 == 1)%Q /\ (t2 == 0)%Q) \/ (c1 = c2 + 1 /\ (t2 == 1)%Q /\ (t1 == 0)%Q).

  Definition match_up k cell1 ts1 s1 cell2 ts2 s2 : Prop :=
    vertex (skipn k cell1) s1 = vertex (skipn k cell2) s2 /\ Forall2 Qeq (offset (skipn k ts1) s1) (offset (skipn k ts2) s2).

  Lemma skipn_nth {A} (l : list A) d k : (k < length l)%nat -> skipn k l = nth k l d :: skipn (S k) l.
  Proof. revert k. induction l as [|x l IH]; intros [|k] H; cbn [length] in H; try lia; [reflexivity|]. cbn [skipn nth]. rewrite IH by lia. reflexivity. Qed.

  Lemma nested_same cell1 ts1 cell2 ts2 : length ts1 = length cell1 -> length ts2 = length cell1 -> length cell2 = length cell1 ->
    (forall j, (j < length cell1)%nat -> same_place (nth j cell1 0) (nth j ts1 0%Q) (nth j cell2 0) (nth j ts2 0%Q)) ->
    forall k s1 s2, (k <= length cell1)%nat -> match_up k cell1 ts1 s1 cell2 ts2 s2 -> (nested i ts1 (F cell1 ts1) k s1 == nested i ts2 (F cell2 ts2) k s2)%Q.
  Proof.
    intros L1 L2 L3 HP. induction k as [|k IH]; intros s1 s2 Hk M.
    - cbn [nested]. destruct M as [M1 M2]. unfold F. cbn [skipn] in *. rewrite M1. now apply dot_comp.
    - cbn [nested]. rewrite !interpolate_fade.
      assert (ST : forall b1 b2, (if b1 : bool then nth k cell1 0 + 1 else nth k cell1 0) = (if b2 : bool then nth k cell2 0 + 1 else nth k cell2 0) ->
          (nth k ts1 0 - bit b1 == nth k ts2 0 - bit b2)%Q -> (nested i ts1 (F cell1 ts1) k (b1 :: s1) == nested i ts2 (F cell2 ts2) k (b2 :: s2))%Q).
      { intros b1 b2 Ev Eo. apply IH; [lia|]. destruct M as [M1 M2]. unfold match_up.
        rewrite (skipn_nth cell1 0 k), (skipn_nth cell2 0 k), (skipn_nth ts1 0%Q k), (skipn_nth ts2 0%Q k) by lia. rewrite !vertex_cons. cbn [offset].
        split; [now rewrite Ev, M1|]. constructor; assumption. }
      destruct (HP k ltac:(lia)) as [(Ec & Et)|[(Ec & E1 & E0)|(Ec & E1 & E0)]].
      + rewrite (fade_comp i _ _ Et). rewrite (ST false false), (ST true true); [reflexivity| | | |]; try (now rewrite Ec); now rewrite Et.
      + rewrite (fade_1 i _ E1), (fade_0 i _ E0). rewrite (ST true false); [ring|lia|]. rewrite E1, E0. reflexivity.
      + rewrite (fade_1 i _ E1), (fade_0 i _ E0). rewrite (ST false true); [ring|lia|]. rewrite E1, E0. reflexivity.
  Qed.

  Lemma sum_same cell1 ts1 cell2 ts2 : length ts1 = length cell1 -> length ts2 = length cell1 -> length cell2 = length cell1 ->
    (forall j, (j < length cell1)%nat -> same_place (nth j cell1 0) (nth j ts1 0%Q) (nth j cell2 0) (nth j ts2 0%Q)) ->
    (nested i ts1 (F cell1 ts1) (length ts1) [] == weighted_sum i g cell2 ts2)%Q.
  Proof.
    intros L1 L2 L3 HP. rewrite (nested_same cell1 ts1 cell2 ts2 L1 L2 L3 HP (length ts1) [] []); [|lia|].
    - rewrite nested_sum by lia. unfold weighted_sum. replace (length ts2) with (length ts1) by lia. apply Qsum_ext. intros c _. rewrite app_nil_r. unfold F.
      rewrite (dot_comp _ _ _ (offset_from_vertex ts2 c)), dot_product. reflexivity.
    - unfold match_up, vertex. rewrite !combine_nil. cbn [map]. split; [reflexivity|].
      assert (K : forall l, offset l [] = []) by (intros []; reflexivity). rewrite !K. constructor.
  Qed.
End Choice.

(* Magnitude *)
Lemma sqr_nonneg (a : Q) : (0 <= a * a)%Q.
Proof. destruct a as [p q]. unfold Qle. cbn. nia. Qed.

Section Bound.
  Variable i : interp.

  Lemma fade_range t : (0 <= t <= 1)%Q -> (0 <= fade i t <= 1)%Q.
  Proof.
    intros [H0 H1]. unfold fade. destruct i; [lra| |].
    - setoid_replace (3 * t ^ 2 - 2 * t ^ 3)%Q with (t * t * (3 - 2 * t))%Q by ring. split; [nra|].
      assert (0 <= (1 - t) * (1 - t) * (1 + 2 * t))%Q by (apply Qmult_le_0_compat; nra). nra.
    - setoid_replace (6 * t ^ 5 - 15 * t ^ 4 + 10 * t ^ 3)%Q with (t * t * t * (6 * (t * t) - 15 * t + 10))%Q by ring.
      assert (P : (0 <= 6 * (t * t) - 15 * t + 10)%Q) by nra.
      assert (T3 : (0 <= t * t * t)%Q) by (apply Qmult_le_0_compat; nra). split; [nra|].
      assert (S3 : (0 <= (1 - t) * (1 - t) * (1 - t))%Q) by (apply Qmult_le_0_compat; nra).
      assert (R : (0 <= (1 - t) * (1 - t) * (1 - t) * (6 * (t * t) + 3 * t + 1))%Q) by (apply Qmult_le_0_compat; [exact S3|nra]).
      setoid_replace ((1 - t) * (1 - t) * (1 - t) * (6 * (t * t) + 3 * t + 1))%Q with (1 - t * t * t * (6 * (t * t) - 15 * t + 10))%Q in R by ring. lra.
  Qed.

  (* Mean square distance to the sides, weighted by closeness *)
  Definition mean (t : Q) : Q := ((1 - fade i t) * (t * t) + fade i t * ((t - 1) * (t - 1)))%Q.

  Lemma mean_bound t : (0 <= t <= 1)%Q -> (mean t <= 1 # 4)%Q.
  Proof.
    intros [H0 H1]. set (x := (t * (1 - t))%Q). assert (X : (0 <= x <= 1 # 4)%Q).
    { unfold x. split; [nra|]. assert (K : (0 <= (t - (1 # 2)) * (t - (1 # 2)))%Q) by apply sqr_nonneg. setoid_replace ((t - (1 # 2)) * (t - (1 # 2)))%Q with ((1 # 4) - t * (1 - t))%Q in K by ring. lra. }
    unfold mean, fade. destruct i.
    - setoid_replace ((1 - t) * (t * t) + t * ((t - 1) * (t - 1)))%Q with x by (unfold x; ring). lra.
    - setoid_replace ((1 - (3 * t ^ 2 - 2 * t ^ 3)) * (t * t) + (3 * t ^ 2 - 2 * t ^ 3) * ((t - 1) * (t - 1)))%Q with (4 * (x * x))%Q by (unfold x; ring). nra.
    - setoid_replace ((1 - (6 * t ^ 5 - 15 * t ^ 4 + 10 * t ^ 3)) * (t * t) + (6 * t ^ 5 - 15 * t ^ 4 + 10 * t ^ 3) * ((t - 1) * (t - 1)))%Q with (x * x + 12 * (x * x * x))%Q by (unfold x; ring).
      assert (x * x <= 1 # 16)%Q by nra. assert (x * x * x <= (1 # 16) * (1 # 4))%Q by nra. lra.
  Qed.

  Definition sq (l : list Q) : Q := dot l l.

  Lemma sq_nonneg l : (0 <= sq l)%Q.
  Proof. unfold sq. induction l as [|x l IH]; cbn [dot]; [lra|]. pose proof (sqr_nonneg x). lra. Qed.

  Lemma Qsq_le a b : (0 <= b -> a * a <= b * b -> a <= b)%Q.
  Proof. intros Hb H. apply Qnot_lt_le. intros K. nra. Qed.

  Lemma cauchy_schwarz : forall a b, (dot a b * dot a b <= sq a * sq b)%Q.
  Proof.
    induction a as [|x a IH]; intros [|y b].
    - unfold sq; cbn; lra.
    - unfold sq; cbn. lra.
    - pose proof (sq_nonneg (x :: a)). cbn [dot]. unfold sq at 2. cbn [dot]. lra.
    - unfold sq. cbn [dot]. fold (sq a) (sq b). specialize (IH b). pose proof (sq_nonneg a) as A. pose proof (sq_nonneg b) as B.
      set (D := dot a b) in *. set (P := sq a) in *. set (R := sq b) in *.
      assert (K : (2 * (x * y * D) <= x * x * R + y * y * P)%Q).
      { assert (XR : (0 <= x * x * R)%Q) by (apply Qmult_le_0_compat; [apply sqr_nonneg|assumption]). assert (YP : (0 <= y * y * P)%Q) by (apply Qmult_le_0_compat; [apply sqr_nonneg|assumption]).
        apply Qsq_le; [lra|].
        assert (Q1 : ((x * y) * (x * y) * (D * D) <= (x * y) * (x * y) * (P * R))%Q).
        { rewrite !(Qmult_comm ((x * y) * (x * y))). apply Qmult_le_compat_r; [exact IH|apply sqr_nonneg]. }
        assert (Q2 : (0 <= (x * x * R - y * y * P) * (x * x * R - y * y * P))%Q) by apply sqr_nonneg.
        setoid_replace (2 * (x * y * D) * (2 * (x * y * D)))%Q with (4 * ((x * y) * (x * y) * (D * D)))%Q by ring.
        setoid_replace ((x * x * R + y * y * P) * (x * x * R + y * y * P))%Q with ((x * x * R - y * y * P) * (x * x * R - y * y * P) + 4 * ((x * y) * (x * y) * (P * R)))%Q by ring.
        lra. }
      setoid_replace ((x * y + D) * (x * y + D))%Q with (x * x * (y * y) + 2 * (x * y * D) + D * D)%Q by ring.
      setoid_replace ((x * x + P) * (y * y + R))%Q with (x * x * (y * y) + (x * x * R + y * y * P) + P * R)%Q by ring. lra.
  Qed.

  Lemma jensen a b u : (0 <= u <= 1 -> ((1 - u) * a + u * b) * ((1 - u) * a + u * b) <= (1 - u) * (a * a) + u * (b * b))%Q.
  Proof.
    intros [H0 H1]. assert (K : (0 <= u * (1 - u) * ((a - b) * (a - b)))%Q) by (apply Qmult_le_0_compat; [nra|apply sqr_nonneg]).
    setoid_replace ((1 - u) * (a * a) + u * (b * b))%Q with (((1 - u) * a + u * b) * ((1 - u) * a + u * b) + u * (1 - u) * ((a - b) * (a - b)))%Q by ring. lra.
  Qed.

  Lemma nested_bound g cell ts : Forall (fun t => 0 <= t <= 1)%Q ts -> (forall bits, length bits = length ts -> (sq (g (vertex cell bits)) <= 1)%Q) ->
    forall k s, (k + length s = length ts)%nat ->
    (nested i ts (F g cell ts) k s * nested i ts (F g cell ts) k s <= sq (offset (skipn k ts) s) + Qsum (map mean (firstn k ts)))%Q.
  Proof.
    intros HT HG. induction k as [|k IH]; intros s Hk.
    - cbn [nested skipn firstn map]. unfold F, Qsum. cbn [fold_right].
      pose proof (cauchy_schwarz (g (vertex cell s)) (offset ts s)) as C. specialize (HG s ltac:(lia)). pose proof (sq_nonneg (offset ts s)).
      assert (sq (g (vertex cell s)) * sq (offset ts s) <= 1 * sq (offset ts s))%Q by (apply Qmult_le_compat_r; assumption). lra.
    - cbn [nested]. set (t := nth k ts 0%Q). assert (Ht : (0 <= t <= 1)%Q) by (rewrite Forall_forall in HT; apply HT; apply nth_In; lia).
      pose proof (fade_range t Ht) as Hu. rewrite interpolate_fade.
      pose proof (IH (false :: s) ltac:(cbn; lia)) as I0. pose proof (IH (true :: s) ltac:(cbn; lia)) as I1.
      set (A := nested i ts (F g cell ts) k (false :: s)) in *. set (B := nested i ts (F g cell ts) k (true :: s)) in *.
      pose proof (jensen A B (fade i t) Hu) as J.
      rewrite (skipn_nth ts 0%Q k) in I0, I1 by lia. cbn [offset] in I0, I1. fold t in I0, I1. unfold sq in I0, I1. cbn [dot bit] in I0, I1. fold (sq (offset (skipn (S k) ts) s)) in I0, I1.
      assert (FS : (Qsum (map mean (firstn (S k) ts)) == Qsum (map mean (firstn k ts)) + mean t)%Q).
      { replace (firstn (S k) ts) with (firstn k ts ++ [t]).
        - rewrite map_app, Qsum_app. apply Qplus_comp; [reflexivity|]. unfold Qsum. cbn [map fold_right]. ring.
        - unfold t. clear - Hk. assert (k < length ts)%nat by lia. clear Hk. revert k H. induction ts as [|x l IH]; intros [|k] H; cbn [length] in H; try lia; [reflexivity|]. cbn [firstn app nth]. f_equal. apply IH. lia. }
      rewrite FS. set (S0 := Qsum (map mean (firstn k ts))) in *. set (O := sq (offset (skipn (S k) ts) s)) in *. unfold mean. set (u := fade i t) in *.
      assert (M0 : ((1 - u) * (A * A) <= (1 - u) * ((t - 0) * (t - 0) + O + S0))%Q) by (rewrite !(Qmult_comm (1 - u)); apply Qmult_le_compat_r; [exact I0|lra]).
      assert (M1 : (u * (B * B) <= u * ((t - 1) * (t - 1) + O + S0))%Q) by (rewrite !(Qmult_comm u); apply Qmult_le_compat_r; [exact I1|lra]).
      setoid_replace (O + (S0 + ((1 - u) * (t * t) + u * ((t - 1) * (t - 1)))))%Q with ((1 - u) * ((t - 0) * (t - 0) + O + S0) + u * ((t - 1) * (t - 1) + O + S0))%Q by ring.
      lra.
  Qed.

  Lemma mean_sum ts : Forall (fun t => 0 <= t <= 1)%Q ts -> (Qsum (map mean ts) <= inject_Z (Z.of_nat (length ts)) * (1 # 4))%Q.
  Proof.
    induction 1 as [|t ts H _ IH]; unfold Qsum in *; cbn [map fold_right length]; [discriminate|]. pose proof (mean_bound t H). rewrite Nat2Z.inj_succ. unfold Z.succ. rewrite inject_Z_plus. change (inject_Z 1) with 1%Q. lra.
  Qed.

  Lemma whole_bound g cell ts : Forall (fun t => 0 <= t <= 1)%Q ts -> (forall bits, length bits = length ts -> (sq (g (vertex cell bits)) <= 1)%Q) ->
    (nested i ts (F g cell ts) (length ts) [] * nested i ts (F g cell ts) (length ts) [] <= inject_Z (Z.of_nat (length ts)) * (1 # 4))%Q.
  Proof.
    intros HT HG. pose proof (nested_bound g cell ts HT HG (length ts) [] ltac:(cbn; lia)) as H. rewrite skipn_all, firstn_all in H. change (sq (offset [] [])) with 0%Q in H. pose proof (mean_sum ts HT). lra.
  Qed.
End Bound.
