(* Lemmas about the model of Deque. *)
From Coq Require Import ZArith List Bool Arith Lia ZifyBool.
From Verif Require Import CInt IntModel IntProofs BufferModel BufferProofs ArrLib UninitModel UninitProofs UninitIndex DequeModel.
Import ListNotations.
Open Scope nat_scope.

Lemma seq_all_app {T} (a b : list (option T)) :
  seq_all (a ++ b) = match seq_all a, seq_all b with Some x, Some y => Some (x ++ y) | _, _ => None end.
Proof.
  unfold seq_all. set (f := fun _ _ => _). induction a as [|[x|] a IH]; cbn [app fold_right].
  - now destruct (fold_right f (Some []) b).
  - rewrite IH. destruct (fold_right f (Some []) a), (fold_right f (Some []) b); reflexivity.
  - now destruct (fold_right f (Some []) b).
Qed.

Section Proofs.
Context {T : Type}.
Context (W : Z) (sizeof_T : Z).
Context (HW : (1 <= W)%Z) (HS : (0 <= sizeof_T <= size_max W)%Z).
Notation mem := (list (option T)).

Definition shape (d : deq T) (xs : list T) : Prop :=
  length (d_mem d) = d_alloc d /\ (0 < d_alloc d -> d_offset d < d_alloc d) /\
  (d_alloc d = 0 -> d_offset d = 0) /\
  d_size d = length xs /\ (0 < length xs -> length xs < d_alloc d) /\
  (Z.of_nat (d_alloc d) <= size_max W)%Z.

Definition drepr (d : deq T) (xs : list T) : Prop :=
  shape d xs /\ forall j, j < d_alloc d -> nth_error (d_mem d) j = Some (nth_error xs (unwrap d j)).

(* n elements can be made room for without overflowing a size *)
Definition roomy (n : nat) : Prop := (2 * (Z.of_nat n + 1) * Z.max 1 sizeof_T <= size_max W)%Z.

Lemma st_size_ok : ity_ok (st_size W).
Proof. unfold st_size, ity_ok. cbn. lia. Qed.

Lemma in_range_st x : (0 <= x <= size_max W)%Z <-> in_range (st_size W) x.
Proof. unfold in_range, st_size, imin, imax, size_max, nvb. cbn. lia. Qed.

(* live and free slots, in terms of the represented sequence *)
Lemma repr_live d xs p n : drepr d xs -> p + n <= d_alloc d ->
  (forall j, p <= j -> j < p + n -> unwrap d j < length xs) -> live_at (d_mem d) p n.
Proof.
  intros (Hs & H) Hb Hu j H1 H2. rewrite H by lia.
  destruct (nth_error_within xs (unwrap d j)) as (x & ->); [apply Hu; lia|]. now exists x.
Qed.

Lemma repr_free d xs p n : drepr d xs -> p + n <= d_alloc d ->
  (forall j, p <= j -> j < p + n -> length xs <= unwrap d j) -> free_at (d_mem d) p n.
Proof.
  intros (Hs & H) Hb Hu j H1 H2. rewrite H by lia. rewrite nth_error_beyond; [reflexivity|]. apply Hu; lia.
Qed.

Lemma realloc_cases d xs n : drepr d xs -> 1 < n -> length xs < n -> (Z.of_nat n <= size_max W)%Z ->
  (exists d', realloc W sizeof_T d n = Done d' /\ drepr d' xs /\ d_alloc d' = n) \/
  (realloc W sizeof_T d n = Throw d /\ (Z.of_nat n * sizeof_T > size_max W)%Z).
Proof.
  intros Hr H1 Hn Hz. pose proof Hr as (Hs & Hv). pose proof Hs as (S1 & S2 & S2' & S3 & S4 & S5).
  unfold realloc. replace (1 <? n) with true by lia. rewrite S3. replace (length xs <? n) with true by lia. cbn [negb].
  rewrite try_int_mul_spec; [|apply st_size_ok..|apply -> in_range_st; lia|apply -> in_range_st; lia].
  destruct (Z_le_gt_dec (Z.of_nat n * sizeof_T) (size_max W)) as [Hb|Hb].
  2:{ right. split; [|exact Hb]. rewrite add_res_false; [reflexivity|]. rewrite <- in_range_st. lia. }
  left. rewrite add_res_true by (apply -> in_range_st; nia). cbn [dopt fst negb].
  destruct (Nat.leb_spec (length xs) (d_alloc d - d_offset d)) as [Hc|Hc].
  - destruct (move_idx (length xs) (d_mem d) (repeat None n) (d_offset d) 0) as (m' & m2' & E & L1 & L2 & I1 & I2).
    { apply (repr_live d xs); [exact Hr|lia|]. intros j A B. unfold unwrap. bcases; lia. }
    { intros j A B. rewrite nth_error_repeat_if. bcases; [reflexivity|lia]. }
    rewrite E. cbn [dopt fst snd]. rewrite all_free_idx.
    2:{ intros j A. rewrite L1 in A. rewrite I1. destruct (inr _ _ j) eqn:Ei; [reflexivity|]. apply inr_false in Ei.
        rewrite Hv by lia. rewrite nth_error_beyond; [reflexivity|]. unfold unwrap. bcases; lia. }
    eexists. split; [reflexivity|]. split; [|reflexivity]. split; [split|].
    + cbn. now rewrite L2, repeat_length.
    + cbn [d_mem d_alloc d_offset d_size]. repeat (split; [lia|]). lia.
    + cbn [d_mem d_alloc]. intros j A. rewrite I2, nth_error_repeat_if. unfold inr, unwrap. cbn [d_offset d_alloc].
      bcases'; first [rewrite (nth_error_beyond xs) by lia; reflexivity
        | rewrite Hv by lia; do 2 f_equal; unfold unwrap; bcases; lia].
  - set (top := d_alloc d - d_offset d) in *.
    destruct (move_a_idx top (d_mem d) (repeat None n) (d_offset d) 0) as (m2a & E & L1 & I1).
    { apply (repr_live d xs); [exact Hr|lia|]. intros j A B. unfold unwrap. bcases; lia. }
    { intros j A B. rewrite nth_error_repeat_if. bcases; [reflexivity|lia]. }
    rewrite E. cbn [obind].
    destruct (move_idx (length xs - top) (d_mem d) m2a 0 top) as (mb & m2b & E2 & L2 & L3 & I2 & I3).
    { apply (repr_live d xs); [exact Hr|lia|]. intros j A B. unfold unwrap. bcases; lia. }
    { intros j A B. rewrite I1, nth_error_repeat_if. unfold inr. bcases'. reflexivity. }
    rewrite E2. cbn [obind fst snd].
    destruct (destroy_idx mb (d_offset d) top) as (mc & E3 & L4 & I4).
    { intros j A B. rewrite I2. unfold inr. bcases'.
      apply (repr_live d xs (d_offset d) top Hr); [lia| |lia|lia]. intros k C D. unfold unwrap. bcases; lia. }
    rewrite E3. cbn [obind dopt fst snd]. rewrite all_free_idx.
    2:{ intros j A. rewrite I4, I2. unfold inr. bcases'; try reflexivity.
        rewrite Hv by lia. rewrite nth_error_beyond; [reflexivity|]. unfold unwrap. bcases; lia. }
    eexists. split; [reflexivity|]. split; [|reflexivity]. split; [split|].
    + cbn. now rewrite L3, L1, repeat_length.
    + cbn [d_mem d_alloc d_offset d_size]. repeat (split; [lia|]). lia.
    + cbn [d_mem d_alloc]. intros j A. rewrite I3, I1, nth_error_repeat_if. unfold inr, unwrap. cbn [d_offset d_alloc].
      bcases'; first [rewrite (nth_error_beyond xs) by lia; reflexivity
        | rewrite Hv by lia; do 2 f_equal; unfold unwrap; bcases; lia].
Qed.

Lemma suggest_bound cur mn m : (0 <= cur < mn)%Z -> (2 * mn <= size_max W)%Z ->
  suggest_new_buffer_size W cur mn (size_max W) = Some m -> (m <= 2 * mn)%Z.
Proof.
  intros Hc Hm Em. unfold suggest_new_buffer_size in Em.
  assert (0 <= cur / 2 <= cur)%Z by (split; [apply Z.div_pos; lia|apply Z.div_le_upper_bound; lia]).
  destruct (negb _); [discriminate|]. destruct (negb _); [discriminate|].
  destruct (_ <=? cur)%Z; [inversion Em; lia|].
  destruct (Z.leb_spec (cur / 2) (usize W (size_max W - cur))) as [Hq|Hq].
  - rewrite usize_id in Em by lia. destruct (_ <=? _)%Z; inversion Em; lia.
  - rewrite usize_id in Hq by lia. lia.
Qed.

Lemma reserve_cases d xs n : drepr d xs -> (Z.of_nat n <= size_max W)%Z ->
  (exists d', reserve W sizeof_T d (Z.of_nat n) = Done d' /\ drepr d' xs /\ (0 < n -> n < d_alloc d') /\
     (n < d_alloc d -> d' = d)) \/
  (reserve W sizeof_T d (Z.of_nat n) = Throw d /\ ~ roomy n).
Proof.
  intros Hr Hn. pose proof Hr as (Hs & Hv). pose proof Hs as (S1 & S2 & S2' & S3 & S4 & S5).
  unfold reserve, roomy. destruct (Z.eqb_spec (Z.of_nat n) 0).
  { left. exists d. split; [reflexivity|]. split; [exact Hr|]. split; [lia|reflexivity]. }
  rewrite try_int_add_spec; [|apply st_size_ok|cbv; discriminate|apply -> in_range_st; lia|cbv; split; discriminate].
  destruct (Z_le_gt_dec (Z.of_nat n + 1) (size_max W)) as [Hf|Hf].
  2:{ right. rewrite add_res_false by (rewrite <- in_range_st; lia). split; [reflexivity|]. nia. }
  rewrite add_res_true by (apply -> in_range_st; lia). cbn [dopt fst snd].
  destruct (Z.leb_spec (Z.of_nat n + 1) (Z.of_nat (d_alloc d))).
  { left. exists d. split; [reflexivity|]. split; [exact Hr|]. split; [lia|reflexivity]. }
  destruct (suggest_spec W (Z.of_nat (d_alloc d)) (Z.of_nat n + 1) (size_max W)) as (m & Em & Hm & _ & _); [lia..|].
  rewrite Em. cbn [dopt].
  destruct (realloc_cases d xs (Z.to_nat m) Hr) as [(d' & E & Hr' & Ha)|[E Ho]]; [lia..| |].
  - left. exists d'. split; [exact E|]. split; [exact Hr'|]. lia.
  - right. split; [exact E|]. intros Hq.
    assert (2 * (Z.of_nat n + 1) <= size_max W)%Z by nia.
    assert (m <= 2 * (Z.of_nat n + 1))%Z by (apply (suggest_bound (Z.of_nat (d_alloc d))); [lia|exact H0|exact Em]). nia.
Qed.

Lemma reserve_extra_cases d xs n : drepr d xs -> (Z.of_nat n <= size_max W)%Z ->
  (exists d', reserve_extra W sizeof_T d n = Done d' /\ drepr d' xs /\
     (0 < length xs + n -> length xs + n < d_alloc d') /\
     (length xs + n < d_alloc d -> d' = d)) \/
  (reserve_extra W sizeof_T d n = Throw d /\ ~ roomy (length xs + n)).
Proof.
  intros Hr Hn. pose proof Hr as (Hs & Hv). pose proof Hs as (S1 & S2 & S2' & S3 & S4 & S5).
  unfold reserve_extra. rewrite S3.
  rewrite try_int_add_spec; [|apply st_size_ok..|apply -> in_range_st; lia|apply -> in_range_st; lia].
  destruct (Z_le_gt_dec (Z.of_nat (length xs) + Z.of_nat n) (size_max W)) as [Hf|Hf].
  2:{ right. rewrite add_res_false by (rewrite <- in_range_st; lia). split; [reflexivity|]. unfold roomy. nia. }
  rewrite add_res_true by (apply -> in_range_st; lia). cbn [dopt fst snd].
  rewrite <- Nat2Z.inj_add. apply reserve_cases; [exact Hr|lia].
Qed.

Lemma size_max_1 : (1 <= size_max W)%Z.
Proof. unfold size_max. assert (2 ^ 1 <= 2 ^ W)%Z by (apply Z.pow_le_mono_r; lia). lia. Qed.

Lemma emplace_front_cases d xs x : drepr d xs -> (Z.of_nat (length xs) < size_max W)%Z ->
  (exists d' y, emplace_front W sizeof_T d x = Done d' /\ x = Some y /\ drepr d' (y :: xs)) \/
  (exists d', emplace_front W sizeof_T d x = Throw d' /\ drepr d' xs /\ (x = None \/ ~ roomy (length xs + 1))).
Proof.
  intros Hr0 Hz. pose proof size_max_1. unfold emplace_front.
  pose proof Hr0 as ((_ & _ & _ & S30 & _) & _). rewrite S30.
  destruct (reserve_cases d xs (length xs + 1) Hr0) as [(d1 & -> & Hr & Hc & _)|[-> Hq]]; [lia| |].
  2:{ right. exists d. cbn [dbind]. auto. }
  cbn [dbind]. pose proof Hr as (Hs & Hv). pose proof Hs as (S1 & S2 & S2' & S3 & S4 & S5).
  replace (0 <? d_alloc d1) with true by lia. cbn [negb].
  destruct x as [x|]; [left|right; exists d1; auto].
  assert (Hi : circular_dec d1 (d_offset d1) < d_alloc d1) by (unfold circular_dec; bcases; lia).
  destruct (create_idx (d_mem d1) (circular_dec d1 (d_offset d1)) x) as (m' & E & L & I).
  { rewrite Hv by exact Hi. rewrite nth_error_beyond; [reflexivity|]. unfold unwrap, circular_dec. bcases; lia. }
  rewrite E. cbn [dopt]. eexists _, x. split; [reflexivity|]. split; [reflexivity|]. split; [split|].
  - cbn [d_mem d_alloc]. lia.
  - cbn [d_mem d_alloc d_offset d_size length]. repeat (split; [lia|]). lia.
  - cbn [d_mem d_alloc]. intros j A. rewrite I. destruct (Nat.eqb_spec j (circular_dec d1 (d_offset d1))) as [->|Hne].
    + unfold unwrap. cbn [d_offset d_alloc]. bcases; [|lia]. rewrite Nat.sub_diag. reflexivity.
    + rewrite Hv by exact A.
      replace (unwrap (Deq _ _ _ _) j) with (S (unwrap d1 j)); [reflexivity|].
      unfold unwrap, circular_dec in *. cbn [d_offset d_alloc]. revert Hne. bcases; lia.
Qed.

Lemma emplace_back_cases d xs x : drepr d xs -> (Z.of_nat (length xs) < size_max W)%Z ->
  (exists d' y, emplace_back W sizeof_T d x = Done d' /\ x = Some y /\ drepr d' (xs ++ [y])) \/
  (exists d', emplace_back W sizeof_T d x = Throw d' /\ drepr d' xs /\ (x = None \/ ~ roomy (length xs + 1))).
Proof.
  intros Hr0 Hz. pose proof size_max_1. unfold emplace_back.
  pose proof Hr0 as ((_ & _ & _ & S30 & _) & _). rewrite S30.
  destruct (reserve_cases d xs (length xs + 1) Hr0) as [(d1 & -> & Hr & Hc & _)|[-> Hq]]; [lia| |].
  2:{ right. exists d. cbn [dbind]. auto. }
  cbn [dbind]. pose proof Hr as (Hs & Hv). pose proof Hs as (S1 & S2 & S2' & S3 & S4 & S5).
  replace (0 <? d_alloc d1) with true by lia. cbn [negb]. rewrite S3.
  destruct x as [x|]; [left|right; exists d1; auto].
  assert (Hi : wrap d1 (length xs) < d_alloc d1) by (unfold wrap; bcases; lia).
  destruct (create_idx (d_mem d1) (wrap d1 (length xs)) x) as (m' & E & L & I).
  { rewrite Hv by exact Hi. rewrite nth_error_beyond; [reflexivity|]. unfold unwrap, wrap. bcases; lia. }
  rewrite E. cbn [dopt]. eexists _, x. split; [reflexivity|]. split; [reflexivity|]. split; [split|].
  - cbn [d_mem d_alloc]. lia.
  - cbn [d_mem d_alloc d_offset d_size]. rewrite app_length. cbn [length]. repeat (split; [lia|]). lia.
  - cbn [d_mem d_alloc]. intros j A. rewrite I. change (unwrap _ j) with (unwrap d1 j).
    rewrite nth_error_app_if.
    destruct (Nat.eqb_spec j (wrap d1 (length xs))) as [->|Hne].
    + replace (unwrap d1 _) with (length xs) by (unfold unwrap, wrap; bcases; lia).
      rewrite Nat.ltb_irrefl, Nat.sub_diag. reflexivity.
    + rewrite Hv by exact A. assert (unwrap d1 j <> length xs) by (revert Hne; unfold unwrap, wrap; bcases; lia).
      bcases; [reflexivity|]. rewrite !nth_error_beyond by (cbn; lia). reflexivity.
Qed.

Lemma pop_front_ok d xs x : drepr d (x :: xs) -> exists d', pop_front d = Done d' /\ drepr d' xs.
Proof.
  intros Hr. pose proof Hr as (Hs & Hv). pose proof Hs as (S1 & S2 & S2' & S3 & S4 & S5). cbn [length] in *.
  unfold pop_front. rewrite S3. cbn [Nat.ltb Nat.leb negb].
  destruct (destroy_idx (d_mem d) (d_offset d) 1) as (m' & E & L & I).
  { apply (repr_live d (x :: xs)); [exact Hr|lia|]. intros j A B. cbn [length]. unfold unwrap. bcases; lia. }
  rewrite E. cbn [dopt]. eexists. split; [reflexivity|]. split; [split|].
  - cbn [d_mem d_alloc]. lia.
  - cbn [d_mem d_alloc d_offset d_size]. unfold circular_inc. bcases; repeat (split; [lia|]); lia.
  - cbn [d_mem d_alloc]. intros j A. rewrite I. unfold inr.
    destruct (Nat.eq_dec j (d_offset d)) as [->|Hne].
    + replace (d_offset d <=? d_offset d) with true by lia. replace (d_offset d <? d_offset d + 1) with true by lia.
      cbn [andb]. rewrite nth_error_beyond; [reflexivity|]. unfold unwrap, circular_inc. cbn [d_offset d_alloc]. bcases; lia.
    + replace ((d_offset d <=? j) && (j <? d_offset d + 1)) with false by lia. rewrite Hv by exact A.
      replace (unwrap d j) with (S (unwrap (Deq m' (circular_inc d (d_offset d)) (S (length xs) - 1) (d_alloc d)) j));
        [reflexivity|].
      unfold unwrap, circular_inc. cbn [d_offset d_alloc]. bcases; lia.
Qed.

(* destroying the elements from index k onwards *)
Lemma destroy_ok d xs ys : drepr d (xs ++ ys) ->
  exists m', destroy d (length xs) = Some m' /\ length m' = d_alloc d /\
    forall j, j < d_alloc d -> nth_error m' j = Some (nth_error xs (unwrap d j)).
Proof.
  intros Hr. pose proof Hr as (Hs & Hv). pose proof Hs as (S1 & S2 & S2' & S3 & S4 & S5). rewrite app_length in *.
  assert (F : forall (m' : mem) r, length m' = d_alloc d ->
    (forall j, j < d_alloc d -> r j = true <-> length xs <= unwrap d j < length xs + length ys) ->
    (forall j, nth_error m' j = if r j then Some None else nth_error (d_mem d) j) ->
    length m' = d_alloc d /\ forall j, j < d_alloc d -> nth_error m' j = Some (nth_error xs (unwrap d j))).
  { intros m' r L Hin I. split; [exact L|]. intros j A. rewrite I. destruct (r j) eqn:E.
    - apply Hin in E; [|exact A]. rewrite nth_error_beyond by lia. reflexivity.
    - assert (~ (length xs <= unwrap d j < length xs + length ys)) by (rewrite <- Hin by exact A; congruence).
      rewrite Hv by exact A. rewrite nth_error_app_if. bcases; [reflexivity|].
      rewrite !nth_error_beyond by lia. reflexivity. }
  unfold destroy. rewrite S3. replace (length xs <=? length xs + length ys) with true by lia. cbn [negb].
  replace (length xs + length ys - length xs) with (length ys) by lia.
  destruct (Nat.ltb_spec (d_alloc d - wrap d (length xs)) (length ys)) as [Hc|Hc].
  - assert (Hw : wrap d (length xs) = d_offset d + length xs /\ d_offset d + length xs < d_alloc d).
    { revert Hc. unfold wrap. bcases; lia. }
    destruct (destroy_idx (d_mem d) 0 (length ys - (d_alloc d - wrap d (length xs)))) as (m1 & E1 & L1 & I1).
    { apply (repr_live d _ _ _ Hr); [lia|]. intros j A B. rewrite app_length. unfold unwrap. bcases; lia. }
    rewrite E1. cbn [obind].
    destruct (destroy_idx m1 (wrap d (length xs)) (d_alloc d - wrap d (length xs))) as (m2 & E2 & L2 & I2).
    { intros j A B. rewrite I1. unfold inr. bcases'.
      apply (repr_live d _ (wrap d (length xs)) (d_alloc d - wrap d (length xs)) Hr); [lia| |lia|lia].
      intros k C D. rewrite app_length. unfold unwrap. bcases; lia. }
    exists m2. split; [exact E2|].
    apply (F m2 (fun j => inr (wrap d (length xs)) (d_alloc d - wrap d (length xs)) j ||
                          inr 0 (length ys - (d_alloc d - wrap d (length xs))) j)); [lia| |].
    + intros j A. rewrite orb_true_iff, !inr_true. unfold unwrap. bcases; lia.
    + intros j. rewrite I2, I1. destruct (inr (wrap _ _) _ j); reflexivity.
  - destruct (destroy_idx (d_mem d) (wrap d (length xs)) (length ys)) as (m2 & E2 & L2 & I2).
    { destruct ys as [|y ys']; [intros j A B; cbn in B; lia|]. set (ys := y :: ys') in *.
      assert (0 < length ys) by (cbn; lia). clearbody ys.
      assert (wrap d (length xs) < d_alloc d) by (unfold wrap; bcases; lia).
      apply (repr_live d _ _ _ Hr); [lia|]. intros j A B. rewrite app_length. revert A B Hc. unfold unwrap, wrap. bcases; lia. }
    exists m2. split; [exact E2|].
    apply (F m2 (inr (wrap d (length xs)) (length ys))); [lia| |exact I2].
    intros j A. rewrite inr_true. revert Hc. unfold unwrap, wrap. bcases; lia.
Qed.

Lemma pop_back_ok d xs x : drepr d (xs ++ [x]) -> exists d', pop_back d = Done d' /\ drepr d' xs.
Proof.
  intros Hr. pose proof Hr as (Hs & Hv). pose proof Hs as (S1 & S2 & S2' & S3 & S4 & S5).
  destruct (destroy_ok d xs [x] Hr) as (m' & E & L & I). rewrite app_length in *. cbn [length] in *.
  unfold pop_back. rewrite S3. replace (0 <? length xs + 1) with true by lia. cbn [negb].
  replace (length xs + 1 - 1) with (length xs) by lia.
  assert (E' : uninit_destroy (d_mem d) (wrap d (length xs)) 1 = Some m').
  { unfold destroy in E. rewrite S3 in E. replace (length xs <=? length xs + 1) with true in E by lia. cbn [negb] in E.
    replace (length xs + 1 - length xs) with 1 in E by lia.
    assert (wrap d (length xs) < d_alloc d) by (unfold wrap; bcases; lia).
    replace (d_alloc d - wrap d (length xs) <? 1) with false in E by lia. exact E. }
  rewrite E'. cbn [dopt]. eexists. split; [reflexivity|]. split; [split|].
  - exact L.
  - cbn [d_mem d_alloc d_offset d_size]. repeat (split; [lia|]). lia.
  - exact I.
Qed.

Lemma clear_ok d xs : drepr d xs -> exists d', clear d = Done d' /\ drepr d' [] /\ d_alloc d' = d_alloc d.
Proof.
  intros Hr. pose proof Hr as (Hs & Hv). pose proof Hs as (S1 & S2 & S2' & S3 & S4 & S5).
  destruct (destroy_ok d [] xs Hr) as (m' & E & L & I). unfold clear. cbn [length] in E. rewrite E. cbn [dopt].
  eexists. split; [reflexivity|]. split; [|reflexivity]. split; [split|].
  - exact L.
  - cbn [d_mem d_alloc d_offset d_size length]. repeat (split; [lia|]). lia.
  - cbn [d_mem d_alloc]. intros j A. rewrite I by exact A. rewrite !nth_error_beyond by (cbn; lia). reflexivity.
Qed.

Lemma resize_down_ok d xs ys make : drepr d (xs ++ ys) ->
  exists d', resize W sizeof_T d (length xs) make = Done d' /\ drepr d' xs.
Proof.
  intros Hr. pose proof Hr as (Hs & Hv). pose proof Hs as (S1 & S2 & S2' & S3 & S4 & S5).
  destruct (destroy_ok d xs ys Hr) as (m' & E & L & I). unfold resize. rewrite S3. rewrite app_length in *.
  replace (length xs <=? length xs + length ys) with true by lia. rewrite E. cbn [dopt].
  eexists. split; [reflexivity|]. split; [split|].
  - exact L.
  - cbn [d_mem d_alloc d_offset d_size]. repeat (split; [lia|]). lia.
  - exact I.
Qed.

Lemma shrink_cases d xs : drepr d xs ->
  (exists d', shrink_to_fit W sizeof_T d = Done d' /\ drepr d' xs /\ capacity d' = length xs) \/
  (shrink_to_fit W sizeof_T d = Throw d /\ ~ roomy (length xs)).
Proof.
  intros Hr. pose proof Hr as (Hs & Hv). pose proof Hs as (S1 & S2 & S2' & S3 & S4 & S5).
  unfold shrink_to_fit. rewrite S3. destruct (Nat.ltb_spec 0 (length xs)) as [Hp|Hp].
  - destruct (Nat.ltb_spec (length xs + 1) (d_alloc d)) as [Hc|Hc].
    + destruct (realloc_cases d xs (length xs + 1) Hr) as [(d' & E & Hr' & Ha)|[E Ho]]; [lia..| |].
      * left. exists d'. split; [exact E|]. split; [exact Hr'|]. unfold capacity. rewrite Ha. bcases; lia.
      * right. split; [exact E|]. unfold roomy. nia.
    + left. exists d. split; [reflexivity|]. split; [exact Hr|]. unfold capacity. bcases; lia.
  - left. destruct xs; [|cbn in Hp; lia]. rewrite all_free_idx.
    2:{ intros j A. rewrite Hv by lia. rewrite nth_error_beyond by (cbn; lia). reflexivity. }
    eexists. split; [reflexivity|]. split; [|reflexivity]. split; [split|].
    + reflexivity.
    + cbn. lia.
    + cbn. lia.
Qed.

(* What a piece of an append does *)
Definition piece_ok (piece : mem -> nat -> nat -> nat -> outcome mem) (src : list (option T)) : Prop :=
  forall m from n p, from + n <= length src -> free_at m p n ->
  (exists m' xs, piece m from n p = Done m' /\ seq_all (firstn n (skipn from src)) = Some xs /\
     length m' = length m /\
     forall j, nth_error m' j = if inr p n j then Some (nth_error xs (j - p)) else nth_error m j) \/
  (piece m from n p = Throw m /\ seq_all (firstn n (skipn from src)) = None).

Lemma append_pieces_cases d xs src piece : drepr d xs -> piece_ok piece src ->
  (0 < length xs + length src -> length xs + length src < d_alloc d) ->
  (exists d' ys, append_pieces d (length src) piece = Done d' /\ seq_all src = Some ys /\ drepr d' (xs ++ ys)) \/
  (append_pieces d (length src) piece = Throw d /\ seq_all src = None).
Proof.
  intros Hr Hp Hroom. pose proof Hr as (Hs & Hv). pose proof Hs as (S1 & S2 & S2' & S3 & S4 & S5).
  assert (Edd : Deq (d_mem d) (d_offset d) (length xs) (d_alloc d) = d) by (rewrite <- S3; now destruct d).
  assert (F : forall (m' : mem) ys, length ys = length src -> length m' = d_alloc d ->
    (forall j, j < d_alloc d -> nth_error m' j =
       if (length xs <=? unwrap d j) && (unwrap d j <? length xs + length src)
       then Some (nth_error ys (unwrap d j - length xs)) else nth_error (d_mem d) j) ->
    drepr (Deq m' (d_offset d) (length xs + length src) (d_alloc d)) (xs ++ ys)).
  { intros m' ys Hl L I. split; [split|].
    - exact L.
    - cbn [d_mem d_alloc d_offset d_size]. rewrite app_length. repeat (split; [lia|]). lia.
    - cbn [d_mem d_alloc]. intros j A. rewrite I by exact A. change (unwrap (Deq _ _ _ _) j) with (unwrap d j).
      rewrite nth_error_app_if. bcases'; [reflexivity| |].
      + rewrite Hv by exact A. rewrite !nth_error_beyond by lia. reflexivity.
      + now rewrite Hv by exact A. }
  unfold append_pieces. rewrite S3.
  assert (Hw : 0 < length xs + length src -> wrap d (length xs) < d_alloc d).
  { intros H. unfold wrap. bcases; lia. }
  destruct (Nat.leb_spec (length src) (d_alloc d - wrap d (length xs))) as [Hc|Hc].
  - destruct (Hp (d_mem d) 0 (length src) (wrap d (length xs))) as [(m' & ys & E & Es & L & I)|[E Es]].
    + lia.
    + intros j A B. apply (repr_free d xs (wrap d (length xs)) (length src) Hr); [lia| |lia|lia].
      intros k C D. revert C D Hc. unfold unwrap, wrap. bcases; lia.
    + left. rewrite E. eexists _, ys. split; [reflexivity|]. cbn [skipn] in Es. rewrite firstn_all in Es.
      split; [exact Es|]. apply F; [now apply seq_all_length in Es|lia|].
      intros j A. rewrite I.
      assert (Hin : inr (wrap d (length xs)) (length src) j = (length xs <=? unwrap d j) && (unwrap d j <? length xs + length src)).
      { apply eq_true_iff_eq. rewrite inr_true, andb_true_iff, Nat.leb_le, Nat.ltb_lt.
        revert Hc. unfold unwrap, wrap. bcases; lia. }
      rewrite Hin. destruct (_ && _) eqn:Eb; [|reflexivity]. do 2 f_equal.
      apply inr_true in Hin. revert Hc Hin. clear Eb. unfold unwrap, wrap. bcases; lia.
    + right. rewrite E. cbn [skipn] in Es. rewrite firstn_all in Es. now rewrite Edd.
  - assert (Hww : wrap d (length xs) = d_offset d + length xs /\ d_offset d + length xs < d_alloc d).
    { specialize (Hw ltac:(lia)). revert Hc Hw. unfold wrap. bcases; lia. }
    destruct Hww as [Hww Hlt]. set (top := d_alloc d - wrap d (length xs)) in *.
    destruct (Hp (d_mem d) 0 top (wrap d (length xs))) as [(m1 & ys & E & Es & L & I)|[E Es]].
    + lia.
    + apply (repr_free d xs _ _ Hr); [lia|]. intros k C D. unfold unwrap. bcases; lia.
    + rewrite E. assert (Hl1 : length ys = top).
      { apply seq_all_length in Es. cbn [skipn] in Es. rewrite firstn_length in Es. lia. }
      destruct (Hp m1 top (length src - top) 0) as [(m2 & zs & E2 & Es2 & L2 & I2)|[E2 Es2]].
      * lia.
      * intros j A B. rewrite I. unfold inr. bcases'.
        rewrite Hv by lia. rewrite nth_error_beyond; [reflexivity|]. unfold unwrap. bcases; lia.
      * left. rewrite E2. eexists _, (ys ++ zs). split; [reflexivity|].
        assert (Hl2 : length zs = length src - top).
        { apply seq_all_length in Es2. rewrite firstn_length, skipn_length in Es2. lia. }
        split.
        -- rewrite <- (firstn_skipn top src). rewrite seq_all_app. cbn [skipn] in Es. rewrite Es.
           rewrite firstn_all2 in Es2 by (rewrite skipn_length; lia). now rewrite Es2.
        -- apply F; [rewrite app_length; lia|lia|]. intros j A. rewrite I2, I, nth_error_app_if, Hl1.
           unfold inr, unwrap.
           destruct (Nat.leb_spec (d_offset d) j); bcases'; first [reflexivity | do 2 f_equal; lia].
      * right. rewrite E2.
        destruct (destroy_idx m1 (wrap d (length xs)) top) as (m3 & E3 & L3 & I3).
        { intros j A B. rewrite I. unfold inr. bcases'.
          destruct (nth_error_within ys (j - wrap d (length xs))) as (y & ->); [lia|]. now exists y. }
        rewrite E3. assert (m3 = d_mem d) as ->.
        { apply nth_error_ext. intros j. rewrite I3, I. destruct (inr _ _ j) eqn:Ei; [|reflexivity].
          apply inr_true in Ei. rewrite Hv by lia. rewrite nth_error_beyond; [reflexivity|]. unfold unwrap. bcases; lia. }
        rewrite Edd. split; [reflexivity|]. rewrite <- (firstn_skipn top src). rewrite seq_all_app.
        rewrite firstn_all2 in Es2 by (rewrite skipn_length; lia). rewrite Es2. now destruct (seq_all (firstn top src)).
    + right. rewrite E, Edd. split; [reflexivity|]. cbn [skipn] in Es.
      rewrite <- (firstn_skipn top src). rewrite seq_all_app. now rewrite Es.
Qed.

Lemma append_copy_cases d xs src : drepr d xs -> (Z.of_nat (length src) <= size_max W)%Z ->
  (exists d' ys, append_copy W sizeof_T d src = Done d' /\ seq_all src = Some ys /\ drepr d' (xs ++ ys)) \/
  (exists d', append_copy W sizeof_T d src = Throw d' /\ drepr d' xs /\
    (seq_all src = None \/ ~ roomy (length xs + length src))).
Proof.
  intros Hr Hn. unfold append_copy.
  destruct (reserve_extra_cases d xs (length src) Hr Hn) as [(d1 & -> & Hr1 & Hc & _)|[-> Hq]]; cbn [dbind].
  2:{ right. exists d. auto. }
  destruct (append_pieces_cases d1 xs src (fun m from n p => uninit_safe_copy m (firstn n (skipn from src)) p) Hr1)
    as [H|[-> Hs]]; [|exact Hc|now left|right; exists d1; auto].
  intros m from n p Hb Hf.
  assert (Hlen : length (firstn n (skipn from src)) = n) by (rewrite firstn_length, skipn_length; lia).
  pose proof (copy_idx m p (firstn n (skipn from src))) as H. rewrite Hlen in H. exact (H Hf).
Qed.

Lemma append_fill_cases d xs n make : drepr d xs -> (Z.of_nat n <= size_max W)%Z ->
  (exists d' ys, append_fill W sizeof_T d n make = Done d' /\ seq_all (map make (seq 0 n)) = Some ys /\ drepr d' (xs ++ ys)) \/
  (exists d', append_fill W sizeof_T d n make = Throw d' /\ drepr d' xs /\
    (seq_all (map make (seq 0 n)) = None \/ ~ roomy (length xs + n))).
Proof.
  intros Hr Hn. unfold append_fill.
  destruct (reserve_extra_cases d xs n Hr Hn) as [(d1 & -> & Hr1 & Hc & _)|[-> Hq]]; cbn [dbind].
  2:{ right. exists d. auto. }
  set (src := map make (seq 0 n)). assert (Hl : length src = n) by (unfold src; now rewrite map_length, seq_length).
  pose proof (append_pieces_cases d1 xs src (fun m from n p => uninit_safe_fill m n (fun i => make (from + i)) p) Hr1) as P.
  rewrite Hl in P. destruct P as [H|[-> Hs]]; [|exact Hc|now left|right; exists d1; auto].
  intros m from k p Hb Hf.
  assert (Hsrc : firstn k (skipn from src) = map (fun i => make (from + i)) (seq 0 k)).
  { apply nth_error_ext. intros j. rewrite nth_error_firstn_if, nth_error_skipn_add. unfold src.
    rewrite !nth_error_map. bcases.
    - assert (H1 : forall a b i, i < b -> nth_error (seq a b) i = Some (a + i)).
      { clear. intros a b. revert a. induction b as [|b IH]; intros a [|i] H; [lia|lia|cbn; f_equal; lia|].
        cbn [seq nth_error]. rewrite IH by lia. f_equal. lia. }
      rewrite !H1 by lia. reflexivity.
    - rewrite (nth_error_beyond (seq 0 k)) by (rewrite seq_length; lia). reflexivity. }
  rewrite Hsrc. exact (fill_idx m p k (fun i => make (from + i)) Hf).
Qed.

Lemma append_input_cases src : forall d xs, drepr d xs -> (Z.of_nat (length xs + length src) <= size_max W)%Z ->
  (exists d' ys, append_input W sizeof_T d src = Done d' /\ seq_all src = Some ys /\ drepr d' (xs ++ ys)) \/
  (exists d' ys zs, append_input W sizeof_T d src = Throw d' /\ src = map Some ys ++ zs /\ drepr d' (xs ++ ys) /\
     (seq_all src = None \/ ~ roomy (length xs + length src))).
Proof.
  induction src as [|x src IH]; intros d xs Hr Hz; cbn [append_input length] in *.
  - left. exists d, []. rewrite app_nil_r. auto.
  - destruct (emplace_back_cases d xs x Hr ltac:(lia)) as [(d1 & y & -> & -> & Hr1)|(d1 & -> & Hr1 & Hq)]; cbn [dbind].
    + cbn [seq_all fold_right]. fold (seq_all src).
      destruct (IH d1 _ Hr1) as [(d' & ys & -> & -> & Hr')|(d' & ys & zs & -> & -> & Hr' & Hq)].
      * rewrite len_snoc. lia.
      * left. exists d', (y :: ys). rewrite <- app_assoc in Hr'. auto.
      * right. exists d', (y :: ys), zs. rewrite <- app_assoc in Hr'.
        split; [reflexivity|]. split; [reflexivity|]. split; [exact Hr'|].
        destruct Hq as [Hq|Hq]; [left; now rewrite Hq|right].
        rewrite len_snoc in Hq. now rewrite Nat.add_succ_r.
    + right. exists d1, [], (x :: src). rewrite app_nil_r. split; [reflexivity|]. split; [reflexivity|].
      split; [exact Hr1|]. destruct Hq as [->|Hq]; [now left|right].
      intros Hq'. apply Hq. unfold roomy in *. nia.
Qed.

Lemma repr_at d xs i : drepr d xs ->
  at_ d i = match nth_error xs i with Some x => Done (Some x) | None => Throw None end.
Proof.
  intros (Hs & Hv). pose proof Hs as (S1 & S2 & S2' & S3 & S4 & S5). unfold at_, index. rewrite S3.
  destruct (Nat.ltb_spec i (length xs)).
  - unfold fetch. rewrite Hv by (unfold wrap; bcases; lia).
    replace (unwrap d (wrap d i)) with i by (unfold unwrap, wrap; bcases; lia).
    destruct (nth_error_within xs i) as (x & ->); [lia|reflexivity].
  - now rewrite nth_error_beyond by lia.
Qed.

Lemma wrap_unwrap d xs i : drepr d xs -> i <= length xs -> unwrap d (wrap d i) = i /\
  (0 < d_alloc d -> wrap d i < d_alloc d).
Proof. intros ((S1 & S2 & S2' & S3 & S4 & S5) & _) H. unfold unwrap, wrap. split; bcases; lia. Qed.

Lemma iterate_ok d xs : drepr d xs -> iterate (S (length xs)) d (begin_ d) = Some xs.
Proof.
  intros Hr. pose proof Hr as (Hs & Hv). pose proof Hs as (S1 & S2 & S2' & S3 & S4 & S5).
  assert (G : forall n i, length xs = i + n -> iterate (S n) d (wrap d i) = Some (skipn i xs)).
  { induction n as [|n IH]; intros i Hi; [|set (k := S n) in IH |- *; clearbody k]; cbn [iterate]; unfold end_; rewrite S3.
    - replace i with (length xs) by lia. rewrite Nat.eqb_refl. now rewrite skipn_all.
    - destruct (wrap_unwrap d xs i Hr ltac:(lia)) as [U1 U2].
      destruct (wrap_unwrap d xs (length xs) Hr ltac:(lia)) as [U3 _].
      destruct (Nat.eqb_spec (wrap d i) (wrap d (length xs))) as [He|He]; [rewrite He in U1; lia|].
      unfold deref, fetch. rewrite Hv by (apply U2; lia). rewrite U1.
      destruct (nth_error_within xs i) as (x & Hx); [lia|]. rewrite Hx. cbn [obind].
      replace (it_inc d (wrap d i)) with (wrap d (i + 1)).
      2:{ unfold it_inc, circular_inc, wrap. destruct (Nat.ltb_spec i (d_alloc d - d_offset d)); bcases; lia. }
      rewrite IH by lia. cbn [obind]. f_equal.
      rewrite <- (firstn_skipn i xs) in Hx. rewrite nth_error_app2 in Hx by (rewrite firstn_length; lia).
      rewrite firstn_length in Hx. replace (i - _) with 0 in Hx by lia.
      replace (i + 1) with (S i) by lia.
      destruct (skipn i xs) as [|y l] eqn:E; [discriminate|]. cbn in Hx. inversion Hx; subst. f_equal.
      change l with (skipn 1 (x :: l)). rewrite <- E. clear. revert xs. induction i; intros [|a xs]; [reflexivity..|apply IHi]. }
  replace (begin_ d) with (wrap d 0); [apply (G (length xs) 0); lia|].
  unfold begin_, wrap. bcases; [lia|]. destruct (Nat.eq_dec (d_alloc d) 0); lia.
Qed.

Lemma dempty_repr : (0 <= size_max W)%Z -> drepr dempty [].
Proof. intros H. split; [split|]; cbn; [reflexivity|lia|lia]. Qed.

End Proofs.
