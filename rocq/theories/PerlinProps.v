(* Theorems about Perlin noise *)
From Coq Require Import ZArith QArith Qround Qminmax Qfield Lia Lqa List Bool.
From Verif Require Import PerlinModel PerlinSpec PerlinProofs PerlinProofs2 ArrLib.
Import ListNotations.
Local Open Scope Z_scope.

(* A grid: size, gauge, and position, for each dimension *)
Definition grid := list (Z * Q * Q).
Definition sizes (g : grid) : list Z := map (fun '(s, _, _) => s) g.
Definition axes_of (g : grid) : list axis := map (fun '(s, w, o) => make_axis s w o) g.

(* The gradients are as many as they must be, and the gauges are not zero *)
Definition grid_ok (g : grid) (gradients : list (list Q)) : Prop :=
  num_gradients (sizes g) = Some (Z.of_nat (length gradients)) /\ Forall (fun '(_, w, _) => ~ w == 0)%Q g.

Definition gradient_at (g : grid) (gradients : list (list Q)) (v : list Z) : list Q := nth (Z.to_nat (place (sizes g) v)) gradients [].

(* A grid module, and a position in it, for the point of the grid that is closest to the specified position *)
Definition located (g : grid) (pos : list Q) (cell : list Z) (ts : list Q) : Prop :=
  length cell = length g /\ length ts = length g /\
  forall j s w o p c t, nth_error g j = Some (s, w, o) -> nth_error pos j = Some p -> nth_error cell j = Some c -> nth_error ts j = Some t ->
    0 <= c < s /\ (0 <= t <= 1)%Q /\ (inject_Z c + t == in_grid s w o p)%Q.

Lemma axes_sizes g : map a_size (axes_of g) = sizes g.
Proof. unfold axes_of, sizes. rewrite map_map. apply map_ext. now intros [[s w] o]. Qed.

Lemma noise_eq i g gradients pos : grid_ok g gradients -> length pos = length g ->
  let ts := fracs (axes_of g) pos in let cell := cells (axes_of g) pos in
  noise i gradients (axes_of g) pos = Some (nested i ts (F (gradient_at g gradients) cell ts) (length ts) []) /\
  (forall bits, length bits = length ts -> 0 <= place (sizes g) (vertex cell bits) < Z.of_nat (length gradients)).
Proof.
  intros [HN _] L ts cell. destruct (num_gradients_ok (sizes g) 1 _ ltac:(lia) HN) as (HS & HT & HB). rewrite Z.mul_1_l in HT.
  assert (HS' : Forall (fun a => 1 <= a_size a) (axes_of g)) by (rewrite <- axes_sizes in HS; exact (proj1 (Forall_map a_size (fun s => 1 <= s) (axes_of g)) HS)).
  assert (La : length (axes_of g) = length g) by (unfold axes_of; apply map_length).
  assert (Lt : length ts = length (axes_of g)) by (unfold ts, fracs, splits; rewrite !map_length, combine_length; lia).
  destruct (locate_ok (axes_of g) pos 0 1 ltac:(lia) HS' ltac:(lia) ltac:(rewrite axes_sizes; lia)) as (shifts & E & Ls & Ei). fold ts cell in E, Ei.
  rewrite axes_sizes in E, Ei. rewrite Z.add_0_l, Z.mul_1_l in E, Ei.
  assert (PR : forall bits, length bits = length ts -> 0 <= place (sizes g) (vertex cell bits) < Z.of_nat (length gradients)).
  { intros bits Lb. rewrite HT. apply place_range.
    - unfold vertex, cell, cells, splits, sizes. rewrite !map_length, !combine_length, !map_length, !combine_length. lia.
    - rewrite <- axes_sizes. apply cells_range; [lia|exact HS'|lia]. }
  split; [|exact PR]. unfold noise. rewrite E. cbn [obind].
  set (G := F (gradient_at g gradients) cell ts).
  assert (CO : forall bits, length bits = length ts ->
    0 <= place (sizes g) cell + shifted shifts bits < 2 ^ 64 /\ at_corner gradients ts (place (sizes g) cell + shifted shifts bits) bits = Some (G bits)).
  { intros bits Lb. specialize (Ei bits ltac:(lia)). rewrite Z.add_0_l, Z.mul_1_l in Ei. rewrite Ei. pose proof (PR bits Lb) as P. split; [lia|]. unfold at_corner. replace (place (sizes g) (vertex cell bits) <? 0) with false by lia.
    unfold G, F, gradient_at. rewrite (nth_error_nth' gradients []) by lia. reflexivity. }
  assert (Z0 : place (sizes g) cell = place (sizes g) cell + shifted shifts (repeat false (length ts))).
  { assert (forall l n, shifted l (repeat false n) = 0) as -> by (induction l as [|x l IH]; intros [|n]; cbn; try reflexivity; apply IH). lia. }
  rewrite <- Lt. rewrite Z0. rewrite (proj2 (CO _ (repeat_length _ _))). cbn [obind]. apply (leave_ok i gradients ts shifts (place (sizes g) cell) G); [lia|exact CO].
Qed.

Lemma split_located s w o p : 1 <= s -> let '(t, c) := split_coord (make_axis s w o) p in (0 <= t <= 1)%Q /\ 0 <= c < s /\ (inject_Z c + t == in_grid s w o p)%Q.
Proof.
  intros Hs. pose proof (split_frac (make_axis s w o) p) as Ht. pose proof (split_cell (make_axis s w o) p Hs) as Hc. destruct (split_coord (make_axis s w o) p) as [t c] eqn:E. cbn [fst snd a_size make_axis] in *.
  split; [exact Ht|]. split; [exact Hc|]. unfold split_coord in E. cbn [a_pos a_inv a_size make_axis] in E.
  assert (X : ((p - o) * (1 / w) == (p - o) / w)%Q) by (unfold Qdiv; ring). set (x := ((p - o) * (1 / w))%Q) in *. unfold in_grid. rewrite <- X. clear X.
  assert (SP : (0 < inject_Z s)%Q) by (change 0%Q with (inject_Z 0); rewrite <- Zlt_Qlt; lia).
  destruct (Qle_bool 0 x) eqn:E1.
  - apply Qle_bool_iff in E1. destruct (Qle_bool (inject_Z s) x) eqn:E2; cbn [negb] in E.
    + apply Qle_bool_iff in E2. injection E as <- <-. rewrite Q.min_l by assumption. rewrite Q.max_r by lra. change 1%Q with (inject_Z 1). rewrite <- (inject_Z_plus (s - 1) 1). now rewrite Z.sub_add.
    + assert (x < inject_Z s)%Q by (apply Qnot_le_lt; intros K; apply Qle_bool_iff in K; congruence). injection E as <- <-. rewrite Q.min_r by lra. rewrite Q.max_r by lra. ring.
  - assert (x < 0)%Q by (apply Qnot_le_lt; intros K; apply Qle_bool_iff in K; congruence). injection E as <- <-. rewrite Q.min_r by lra. rewrite Q.max_l by lra. ring.
Qed.

Lemma place_unique c1 t1 c2 t2 y : (0 <= t1 <= 1)%Q -> (0 <= t2 <= 1)%Q -> (inject_Z c1 + t1 == y)%Q -> (inject_Z c2 + t2 == y)%Q -> same_place c1 t1 c2 t2.
Proof.
  intros H1 H2 E1 E2. unfold same_place. assert (D : (inject_Z c1 <= inject_Z c2 + 1 /\ inject_Z c2 <= inject_Z c1 + 1)%Q) by lra. destruct D as [D1 D2].
  change 1%Q with (inject_Z 1) in D1, D2. rewrite <- inject_Z_plus, <- Zle_Qle in D1, D2. assert (C : c1 = c2 \/ c2 = c1 + 1 \/ c1 = c2 + 1) by lia. destruct C as [C|[C|C]]; rewrite C in *.
  - left. split; [reflexivity|lra].
  - right. left. rewrite inject_Z_plus in E2. change (inject_Z 1) with 1%Q in E2. repeat split; lra.
  - right. right. rewrite inject_Z_plus in E1. change (inject_Z 1) with 1%Q in E1. repeat split; lra.
Qed.

(* C194: the noise at a position is the weighted sum, over the corners of the grid module that contains the closest point of the grid, of the products of
   the gradients and the vectors from the corners.  If the point is in several modules, they all give the same value.  All accesses are in bounds. *)
Theorem noise_right i g gradients pos cell ts : grid_ok g gradients -> length pos = length g -> located g pos cell ts ->
  exists v, noise i gradients (axes_of g) pos = Some v /\ (v == weighted_sum i (gradient_at g gradients) cell ts)%Q.
Proof.
  intros HG L (Lc & Lt & HL). destruct (noise_eq i g gradients pos HG L) as [E _]. eexists. split; [exact E|].
  assert (La : length (axes_of g) = length g) by (unfold axes_of; apply map_length).
  assert (L1 : length (cells (axes_of g) pos) = length g) by (unfold cells, splits; rewrite !map_length, combine_length; lia).
  assert (L2 : length (fracs (axes_of g) pos) = length g) by (unfold fracs, splits; rewrite !map_length, combine_length; lia).
  apply sum_same; try lia. intros j Hj. rewrite L1 in Hj.
  destruct (nth_error g j) as [[[s w] o]|] eqn:Eg; [|apply nth_error_None in Eg; lia]. destruct (nth_error pos j) as [p|] eqn:Ep; [|apply nth_error_None in Ep; lia].
  destruct (nth_error cell j) as [c|] eqn:Ec; [|apply nth_error_None in Ec; lia]. destruct (nth_error ts j) as [t|] eqn:Et; [|apply nth_error_None in Et; lia].
  destruct (HL j s w o p c t Eg Ep Ec Et) as (_ & Ht & Ey). rewrite (nth_error_nth _ _ 0 Ec), (nth_error_nth _ _ 0%Q Et).
  assert (SP : nth_error (splits (axes_of g) pos) j = Some (split_coord (make_axis s w o) p)).
  { unfold splits, axes_of. clear - Eg Ep. revert g pos Eg Ep. induction j as [|j IH]; intros [|[[s' w'] o'] g] [|p' pos] Eg Ep; try discriminate; cbn [nth_error map combine] in *; [congruence|]. now apply IH. }
  destruct HG as [HN _]. destruct (num_gradients_ok (sizes g) 1 _ ltac:(lia) HN) as (HS & _).
  assert (Hs : 1 <= s). { rewrite Forall_forall in HS. apply HS. unfold sizes. apply in_map_iff. exists (s, w, o). split; [reflexivity|]. now apply nth_error_In in Eg. }
  pose proof (split_located s w o p Hs) as K. destruct (split_coord (make_axis s w o) p) as [t0 c0] eqn:E0. destruct K as (K1 & K2 & K3).
  unfold cells, fracs. rewrite (nth_error_nth _ j 0 (x := c0)) by (rewrite nth_error_map, SP; reflexivity). rewrite (nth_error_nth _ j 0%Q (x := t0)) by (rewrite nth_error_map, SP; reflexivity).
  now apply place_unique with (in_grid s w o p).
Qed.

(* A grid of 2 times 1 modules *)
Definition case_grid : grid := [(2, 2%Q, 10%Q); (1, 1%Q, 0%Q)].
Definition case_gradients : list (list Q) := [[1; 0]; [0; 1]; [-1; 0]; [0; -1]; [3 # 5; 4 # 5]; [-4 # 5; 3 # 5]]%Q.
Example noise_case : grid_ok case_grid case_gradients /\ located case_grid [13; 1 # 3]%Q [1; 0] [1 # 2; 1 # 3]%Q /\
  option_map Qred (noise Smooth case_gradients (axes_of case_grid) [13; 1 # 3]%Q) = Some (451 # 1620)%Q.
Proof.
  split; [|split].
  - split; [reflexivity|]. repeat constructor; discriminate.
  - split; [reflexivity|]. split; [reflexivity|]. intros [|[|j]] s w o p c t; cbn [nth_error]; try (destruct j; discriminate); intros [= <- <- <-] [= <-] [= <-] [= <-]; (split; [lia|]); (split; [split; discriminate|reflexivity]).
  - vm_compute. reflexivity.
Qed.
(* A point between two modules is in both *)
Example noise_case_border : located case_grid [12; 1 # 3]%Q [0; 0] [1; 1 # 3]%Q /\ located case_grid [12; 1 # 3]%Q [1; 0] [0; 1 # 3]%Q.
Proof.
  split; (split; [reflexivity|]); (split; [reflexivity|]); intros [|[|j]] s w o p c t; cbn [nth_error]; try (destruct j; discriminate);
    intros [= <- <- <-] [= <-] [= <-] [= <-]; (split; [lia|]); (split; [split; discriminate|reflexivity]).
Qed.

(* C195: the noise at a position is the noise at the closest point of the grid, and every position is in some grid module *)
Theorem noise_total i g gradients pos : grid_ok g gradients -> length pos = length g ->
  (exists cell ts, located g pos cell ts) /\
  forall pos', length pos' = length g ->
    (forall j s w o p p', nth_error g j = Some (s, w, o) -> nth_error pos j = Some p -> nth_error pos' j = Some p' -> (in_grid s w o p == in_grid s w o p')%Q) ->
    exists v v', noise i gradients (axes_of g) pos = Some v /\ noise i gradients (axes_of g) pos' = Some v' /\ (v == v')%Q.
Proof.
  intros HG L.
  assert (LO : located g pos (cells (axes_of g) pos) (fracs (axes_of g) pos)).
  { assert (La : length (axes_of g) = length g) by (unfold axes_of; apply map_length).
    split; [unfold cells, splits; rewrite !map_length, combine_length; lia|]. split; [unfold fracs, splits; rewrite !map_length, combine_length; lia|].
    intros j s w o p c t Eg Ep Ec Et. destruct HG as [HN _]. destruct (num_gradients_ok (sizes g) 1 _ ltac:(lia) HN) as (HS & _).
    assert (Hs : 1 <= s). { rewrite Forall_forall in HS. apply HS. unfold sizes. apply in_map_iff. exists (s, w, o). split; [reflexivity|]. now apply nth_error_In in Eg. }
    assert (SP : nth_error (splits (axes_of g) pos) j = Some (split_coord (make_axis s w o) p)).
    { unfold splits, axes_of. clear - Eg Ep. revert g pos Eg Ep. induction j as [|j IH]; intros [|[[s' w'] o'] g] [|p' pos] Eg Ep; try discriminate; cbn [nth_error map combine] in *; [congruence|]. now apply IH. }
    unfold cells, fracs in Ec, Et. rewrite nth_error_map, SP in Ec, Et. cbn [option_map] in Ec, Et. pose proof (split_located s w o p Hs) as K. destruct (split_coord (make_axis s w o) p) as [t0 c0]. cbn [fst snd] in *.
    injection Ec as <-. injection Et as <-. destruct K as (K1 & K2 & K3). split; [exact K2|]. split; [exact K1|exact K3]. }
  split; [now exists (cells (axes_of g) pos), (fracs (axes_of g) pos)|]. intros pos' L' HE.
  destruct (noise_right i g gradients pos _ _ HG L LO) as (v & E & V). destruct LO as (Lc & Lt & HL).
  assert (LO' : located g pos' (cells (axes_of g) pos) (fracs (axes_of g) pos)).
  { split; [exact Lc|]. split; [exact Lt|]. intros j s w o p' c t Eg Ep Ec Et. destruct (nth_error pos j) as [p|] eqn:E1; [|apply nth_error_None in E1; assert (j < length g)%nat by (apply nth_error_Some; congruence); lia].
    destruct (HL j s w o p c t Eg E1 Ec Et) as (A & B & D). split; [exact A|]. split; [exact B|]. rewrite D. now apply (HE j). }
  destruct (noise_right i g gradients pos' _ _ HG L' LO') as (v' & E' & V'). exists v, v'. split; [exact E|]. split; [exact E'|]. now rewrite V, V'.
Qed.

Example noise_total_case : option_map Qred (noise Linear case_gradients (axes_of case_grid) [-7; 1 # 3]%Q) = option_map Qred (noise Linear case_gradients (axes_of case_grid) [10; 1 # 3]%Q) /\
  option_map Qred (noise Linear case_gradients (axes_of case_grid) [10; 1 # 3]%Q) = Some (2 # 9)%Q.
Proof. vm_compute. split; reflexivity. Qed.

(* C196: for unit gradients, the square of the noise is at most n / 4, where n is the number of dimensions.  With a range, the noise is in that range if
   the amplitude is the square root of n / 4. *)
Theorem noise_amplitude i g gradients pos : grid_ok g gradients -> length pos = length g ->
  Forall (fun v => product v v == 1)%Q gradients ->
  (exists v, noise i gradients (axes_of g) pos = Some v /\ (v * v <= inject_Z (Z.of_nat (length g)) * (1 # 4))%Q) /\
  forall amplitude from to, (0 < amplitude)%Q -> (amplitude * amplitude == inject_Z (Z.of_nat (length g)) * (1 # 4))%Q -> (from <= to)%Q ->
    exists v, noise_in_range i gradients (axes_of g) amplitude pos from to = Some v /\ (from <= v <= to)%Q.
Proof.
  intros HG L HU. destruct (noise_eq i g gradients pos HG L) as [E PR]. set (ts := fracs (axes_of g) pos) in *. set (cell := cells (axes_of g) pos) in *.
  assert (La : length (axes_of g) = length g) by (unfold axes_of; apply map_length).
  assert (Lt : length ts = length g) by (unfold ts, fracs, splits; rewrite !map_length, combine_length; lia).
  assert (B := whole_bound i (gradient_at g gradients) cell ts). set (v := nested i ts (F (gradient_at g gradients) cell ts) (length ts) []) in *.
  assert (BV : (v * v <= inject_Z (Z.of_nat (length g)) * (1 # 4))%Q).
  { rewrite Lt in B. apply B.
    - apply Forall_forall. intros t Ht. unfold ts, fracs, splits in Ht. rewrite map_map in Ht. apply in_map_iff in Ht. destruct Ht as ([a p] & <- & _). apply split_frac.
    - intros bits Lb. specialize (PR bits ltac:(lia)). unfold gradient_at, sq. rewrite Forall_forall in HU. rewrite dot_product. rewrite HU; [lra|]. apply nth_In. lia. }
  split; [now exists v|]. intros amplitude from to Ha Hq Hft. unfold noise_in_range. rewrite E. cbn [obind]. eexists. split; [reflexivity|].
  assert (R : (- (1) <= v / amplitude <= 1)%Q).
  { rewrite <- Hq in BV. assert (V1 : (v <= amplitude)%Q) by (apply Qsq_le; lra). assert (V2 : (- v <= amplitude)%Q) by (apply Qsq_le; [lra|]; setoid_replace (- v * - v)%Q with (v * v)%Q by ring; exact BV).
    split; [apply Qle_shift_div_l; lra|apply Qle_shift_div_r; lra]. }
  set (r := (v / amplitude)%Q) in *. assert (S : (0 <= (1 + r) / 2 <= 1)%Q) by (split; [apply Qle_shift_div_l|apply Qle_shift_div_r]; lra).
  set (q := ((1 + r) / 2)%Q) in *. assert (M : (0 <= q * (to - from))%Q) by (apply Qmult_le_0_compat; lra). assert (M2 : (0 <= (1 - q) * (to - from))%Q) by (apply Qmult_le_0_compat; lra). lra.
Qed.

(* The bound is attained.  (The documentation says that the maximum is the square root of n / 2.) *)
Example noise_amplitude_case : let g := [(1, 1%Q, 0%Q)] in let gradients := [[1]; [-1]]%Q in grid_ok g gradients /\ Forall (fun v => product v v == 1)%Q gradients /\
  option_map Qred (noise Smoother gradients (axes_of g) [1 # 2]%Q) = Some (1 # 2)%Q /\
  option_map Qred (noise_in_range Linear gradients (axes_of g) (1 # 2) [1 # 2] 3 7)%Q = Some 7%Q.
Proof.
  split; [split; [reflexivity|repeat constructor; discriminate]|]. split; [repeat constructor|]. split; vm_compute; reflexivity.
Qed.

Print Assumptions noise_right.
Print Assumptions noise_total.
Print Assumptions noise_amplitude.
