(* Theorems about Deque (C23, C24). *)
From Coq Require Import ZArith List Bool Arith Lia ZifyBool.
From Verif Require Import CInt IntModel BufferModel ArrLib UninitModel UninitProofs UninitIndex DequeModel DequeSpec DequeProofs DequeErase.
Import ListNotations.
Open Scope nat_scope.

Section Props.
Context {T : Type}.
Context (W : Z) (sizeof_T : Z).
Context (HW : (1 <= W)%Z) (HS : (0 <= sizeof_T <= size_max W)%Z).

Definition do_op (d : deq T) (o : dop T) : outcome (deq T) :=
  match o with
  | EmplaceFront x => emplace_front W sizeof_T d x
  | EmplaceBack x => emplace_back W sizeof_T d x
  | PopFront => pop_front d
  | PopBack => pop_back d
  | AppendFill n make => append_fill W sizeof_T d n make
  | AppendCopy src => append_copy W sizeof_T d src
  | AppendInput src => append_input W sizeof_T d src
  | Clear => clear d
  | Resize n make => resize W sizeof_T d n make
  | Reserve n => reserve W sizeof_T d (Z.of_nat n)
  | ShrinkToFit => shrink_to_fit W sizeof_T d
  end.

Fixpoint do_ops (d : deq T) (os : list (dop T)) : outcome (deq T) :=
  match os with
  | [] => Done d
  | o :: os => match do_op d o with Done d => do_ops d os | r => r end
  end.

(* The deque holds exactly the sequence xs: counting circularly from the offset, slot i
   holds element i of xs, and all other slots are uninitialised. *)
Definition deq_holds (d : deq T) (xs : list T) : Prop :=
  d_size d = length xs /\ length (d_mem d) = d_alloc d /\ (Z.of_nat (d_alloc d) <= size_max W)%Z /\
  (d_alloc d = 0 /\ d_offset d = 0 /\ xs = [] \/
   d_offset d < d_alloc d /\ length xs < d_alloc d /\
   forall i, i < d_alloc d ->
     nth_error (d_mem d) ((d_offset d + i) mod d_alloc d) = Some (nth_error xs i)).

Lemma deq_holds_repr d xs : deq_holds d xs <-> drepr W d xs.
Proof.
  assert (M : forall i, i < d_alloc d -> d_offset d < d_alloc d ->
    (d_offset d + i) mod d_alloc d = if d_offset d + i <? d_alloc d then d_offset d + i else d_offset d + i - d_alloc d).
  { intros i Hi Ho. bcases; [now apply Nat.mod_small|].
    symmetry. apply (Nat.mod_unique _ _ 1); lia. }
  split.
  - intros (H1 & H2 & H3 & [(H4 & H5 & ->)|(H4 & H5 & H6)]).
    + split; [split|]; cbn [length] in *; lia.
    + split; [split; lia|]. intros j Hj.
      specialize (H6 (unwrap d j)). rewrite M in H6 by (unfold unwrap; bcases; lia).
      rewrite <- H6 by (unfold unwrap; bcases; lia). f_equal. unfold unwrap. destruct (Nat.leb_spec (d_offset d) j); bcases; lia.
  - intros ((H1 & H2 & H3 & H4 & H5 & H6) & H7). split; [exact H4|]. split; [exact H1|]. split; [exact H6|].
    destruct (Nat.eq_dec (d_alloc d) 0) as [E|E].
    + left. split; [exact E|]. split; [lia|]. destruct xs; [reflexivity|cbn [length] in *; lia].
    + right. split; [lia|]. split; [lia|]. intros i Hi. rewrite M by lia. rewrite H7 by (bcases; lia). do 2 f_equal.
      unfold unwrap. destruct (Nat.ltb_spec (d_offset d + i) (d_alloc d)); bcases; lia.
Qed.

(* Enough room to make n elements fit without a size overflowing *)
Definition fits (n : nat) : Prop := (2 * (Z.of_nat n + 1) * Z.max 1 sizeof_T <= size_max W)%Z.

Lemma fits_bound n m : fits n -> m <= n + 1 -> (Z.of_nat m <= size_max W)%Z.
Proof. unfold fits. nia. Qed.

Lemma seq_all_map (l : list (option T)) (ys : list T) : l = map Some ys -> seq_all l = Some ys.
Proof. intros ->. apply seq_all_some. Qed.

(* One operation *)
Theorem deque_step d xs o ys : deq_holds d xs -> dstep o xs ys -> fits (demand o xs) ->
  exists d', do_op d o = Done d' /\ deq_holds d' ys.
Proof.
  intros Hd Hs Hf. rewrite deq_holds_repr in Hd.
  assert (G : forall r, (exists d', r = Done d' /\ drepr W d' ys) -> exists d', r = Done d' /\ deq_holds d' ys).
  { intros r (v' & E & Hr). exists v'. split; [exact E|]. now apply deq_holds_repr. }
  destruct Hs; unfold demand in Hf; cbn [do_op]; apply G; clear G;
    pose proof (fun m => fits_bound _ m Hf) as Hz.
  - destruct (emplace_front_cases W sizeof_T HW HS d xs (Some x) Hd)
      as [(d' & y & -> & Ey & Hr)|(d' & -> & Hr & [Hq|Hq])]; [specialize (Hz (length xs + 1)); lia| |discriminate|contradiction].
    inversion Ey; subst. eauto.
  - destruct (emplace_back_cases W sizeof_T HW HS d xs (Some x) Hd)
      as [(d' & y & -> & Ey & Hr)|(d' & -> & Hr & [Hq|Hq])]; [specialize (Hz (length xs + 1)); lia| |discriminate|contradiction].
    inversion Ey; subst. eauto.
  - destruct (pop_front_ok W d xs x Hd) as (d' & -> & Hr). eauto.
  - destruct (pop_back_ok W d xs x Hd) as (d' & -> & Hr). eauto.
  - pose proof (seq_all_map _ _ H) as E.
    destruct (append_fill_cases W sizeof_T HW HS d xs n make Hd)
      as [(d' & y & -> & Ey & Hr)|(d' & -> & Hr & [Hq|Hq])]; [apply Hz; lia| |congruence|contradiction].
    replace y with ys in * by congruence. eauto.
  - rewrite map_length in *.
    destruct (append_copy_cases W sizeof_T HW HS d xs (map Some ys) Hd)
      as [(d' & y & -> & Ey & Hr)|(d' & -> & Hr & [Hq|Hq])]; rewrite ?map_length in *; [apply Hz; lia| | |contradiction];
      rewrite seq_all_some in *; [|congruence].
    replace y with ys in * by congruence. eauto.
  - rewrite map_length in *.
    destruct (append_input_cases W sizeof_T HW HS (map Some ys) d xs Hd)
      as [(d' & y & -> & Ey & Hr)|(d' & y & zs & -> & _ & Hr & [Hq|Hq])]; rewrite ?map_length in *; [apply Hz; lia| | |contradiction];
      rewrite seq_all_some in *; [|congruence].
    replace y with ys in * by congruence. eauto.
  - destruct (clear_ok W d xs Hd) as (d' & -> & Hr & _). eauto.
  - subst n. destruct (resize_down_ok W sizeof_T d xs ys make Hd) as (d' & -> & Hr). eauto.
  - pose proof (seq_all_map _ _ H0) as E. unfold resize.
    pose proof Hd as ((_ & _ & _ & S3 & _) & _). rewrite S3.
    replace (n <=? length xs) with false by lia.
    destruct (append_fill_cases W sizeof_T HW HS d xs (n - length xs) make Hd)
      as [(d' & y & -> & Ey & Hr)|(d' & -> & Hr & [Hq|Hq])]; [apply Hz; lia| |congruence|].
    + replace y with ys in * by congruence. eauto.
    + exfalso. apply Hq. replace (length xs + (n - length xs)) with (Nat.max (length xs) n) by lia. exact Hf.
  - destruct (reserve_cases W sizeof_T HW HS d xs n Hd)
      as [(d' & -> & Hr & _)|(-> & Hq)]; [apply Hz; lia|eauto|].
    exfalso. apply Hq. unfold roomy. unfold fits in Hf. nia.
  - destruct (shrink_cases W sizeof_T HW HS d xs Hd) as [(d' & -> & Hr & _)|(-> & Hq)]; [|contradiction]. eauto.
Qed.

(* From an empty deque, any sequence of operations yields the elements that the
   mathematical sequence would hold, in order; at() and iteration see exactly them; and
   destroying the deque destroys every element exactly once and leaves nothing behind. *)
Theorem deque_history os ys : drun fits os [] ys ->
  exists d, do_ops dempty os = Done d /\ deq_holds d ys /\
    (forall i, at_ d i = match nth_error ys i with Some x => Done (Some x) | None => Throw None end) /\
    iterate (S (length ys)) d (begin_ d) = Some ys /\
    destroy d 0 = Some (repeat None (length (d_mem d))).
Proof.
  intros H.
  assert (G : forall d xs, deq_holds d xs -> drun fits os xs ys ->
    exists d', do_ops d os = Done d' /\ deq_holds d' ys).
  { clear H. revert ys. induction os as [|o os IH]; intros zs d xs Hv Hr; inversion Hr as [|o' os' xs' ys' zs' S1 S3 S4]; subst.
    - exists d. split; [reflexivity|exact Hv].
    - destruct (deque_step d xs o _ Hv S1 S3) as (d1 & E & Hv1). cbn [do_ops]. rewrite E.
      eapply IH; eassumption. }
  assert (HZ : (0 <= size_max W)%Z) by lia.
  destruct (G dempty [] (proj2 (deq_holds_repr _ _) (dempty_repr W HZ)) H) as (d & E & Hd).
  exists d. split; [exact E|]. split; [exact Hd|]. apply deq_holds_repr in Hd. split.
  - intros i. now apply (repr_at W).
  - split; [now apply (iterate_ok W)|].
    pose proof Hd as ((S1 & _) & _).
    destruct (destroy_ok W d [] ys Hd) as (m & Em & L & I). cbn [length] in Em. rewrite Em. f_equal.
    apply nth_error_ext. intros j. rewrite nth_error_repeat_if, S1. bcases.
    + rewrite I by lia. now rewrite nth_error_beyond by (cbn; lia).
    + apply nth_error_beyond. lia.
Qed.

(* An operation that throws leaves the elements as they were (an append through input
   iterators leaves those it had already appended); and it throws only if a constructor
   does, or if the required size is too large. *)
Theorem deque_exception_safe d xs o d' : deq_holds d xs ->
  match o with PopFront | PopBack => xs <> [] | _ => True end ->
  (Z.of_nat (demand o xs) <= size_max W)%Z ->
  do_op d o = Throw d' ->
  (exists ys, deq_holds d' (xs ++ ys) /\ (ys = [] \/ exists zs, o = AppendInput (map Some ys ++ zs))) /\
  ((exists ys, dstep o xs ys) -> ~ fits (demand o xs)).
Proof.
  intros Hd Hpre Hz E. rewrite deq_holds_repr in Hd.
  assert (G : drepr W d' xs -> exists ys, deq_holds d' (xs ++ ys) /\
                (ys = [] \/ exists zs, o = AppendInput (map Some ys ++ zs))).
  { intros Hr. exists []. rewrite app_nil_r. split; [now apply deq_holds_repr|now left]. }
  destruct o; cbn [do_op] in E; unfold demand in *.
  - destruct (emplace_front_cases W sizeof_T HW HS d xs x Hd ltac:(lia))
      as [(w & y & Ew & _)|(w & Ew & Hr & Hq)]; rewrite Ew in E; [discriminate|]. inversion E; subst w.
    split; [auto|]. intros (ys & Hs). inversion Hs; subst. destruct Hq; [discriminate|assumption].
  - destruct (emplace_back_cases W sizeof_T HW HS d xs x Hd ltac:(lia))
      as [(w & y & Ew & _)|(w & Ew & Hr & Hq)]; rewrite Ew in E; [discriminate|]. inversion E; subst w.
    split; [auto|]. intros (ys & Hs). inversion Hs; subst. destruct Hq; [discriminate|assumption].
  - destruct xs as [|x xs]; [congruence|].
    destruct (pop_front_ok W d xs x Hd) as (w & Ew & _). rewrite Ew in E. discriminate.
  - destruct xs as [|x xs _] using rev_ind; [congruence|].
    destruct (pop_back_ok W d xs x Hd) as (w & Ew & _). rewrite Ew in E. discriminate.
  - destruct (append_fill_cases W sizeof_T HW HS d xs n make Hd ltac:(lia))
      as [(w & y & Ew & _)|(w & Ew & Hr & Hq)]; rewrite Ew in E; [discriminate|]. inversion E; subst w.
    split; [auto|]. intros (ys & Hs). inversion Hs; subst.
    match goal with H : map make _ = map Some _ |- _ => apply seq_all_map in H end.
    destruct Hq; [congruence|assumption].
  - destruct (append_copy_cases W sizeof_T HW HS d xs src Hd ltac:(lia))
      as [(w & y & Ew & _)|(w & Ew & Hr & Hq)]; rewrite Ew in E; [discriminate|]. inversion E; subst w.
    split; [auto|]. intros (ys & Hs). inversion Hs; subst. rewrite seq_all_some in Hq.
    destruct Hq; [congruence|assumption].
  - destruct (append_input_cases W sizeof_T HW HS src d xs Hd ltac:(lia))
      as [(w & y & Ew & _)|(w & y & zs & Ew & Es & Hr & Hq)]; rewrite Ew in E; [discriminate|].
    inversion E; subst w. split.
    + exists y. split; [now apply deq_holds_repr|]. right. exists zs. now rewrite Es.
    + intros (ys & Hs). inversion Hs; subst.
      match goal with H : map Some _ = map Some y ++ zs |- _ => rewrite <- H in * end.
      rewrite seq_all_some in Hq. destruct Hq; [congruence|assumption].
  - destruct (clear_ok W d xs Hd) as (w & Ew & _). rewrite Ew in E. discriminate.
  - destruct (Nat.le_gt_cases n (length xs)) as [Hn|Hn].
    + rewrite <- (firstn_skipn n xs) in Hd.
      destruct (resize_down_ok W sizeof_T d _ _ make Hd) as (w & Ew & _).
      rewrite firstn_length in Ew. replace (Nat.min n (length xs)) with n in Ew by lia. congruence.
    + unfold resize in E. pose proof Hd as ((_ & _ & _ & S3 & _) & _). rewrite S3 in E.
      replace (n <=? length xs) with false in E by lia.
      destruct (append_fill_cases W sizeof_T HW HS d xs (n - length xs) make Hd ltac:(lia))
        as [(w & y & Ew & _)|(w & Ew & Hr & Hq)]; rewrite Ew in E; [discriminate|]. inversion E; subst w.
      split; [auto|]. intros (ys & Hs). inversion Hs; subst; [rewrite app_length in Hn; lia|].
      match goal with H : map make _ = map Some _ |- _ => apply seq_all_map in H end.
      destruct Hq as [Hq|Hq]; [congruence|].
      now replace (length xs + (n - length xs)) with (Nat.max (length xs) n) in Hq by lia.
  - destruct (reserve_cases W sizeof_T HW HS d xs n Hd ltac:(lia))
      as [(w & Ew & _)|(Ew & Hq)]; rewrite Ew in E; [discriminate|]. inversion E; subst d'.
    split; [auto|]. intros _ Hf. apply Hq. unfold roomy. unfold fits in Hf. nia.
  - destruct (shrink_cases W sizeof_T HW HS d xs Hd) as [(w & Ew & _)|(Ew & Hq)]; rewrite Ew in E; [discriminate|].
    inversion E; subst d'. split; [auto|]. intros _. exact Hq.
Qed.

(* reserve() and shrink_to_fit() provide the capacity that they promise, and within the
   reserved capacity nothing is reallocated. *)
Theorem deque_capacity d xs n : deq_holds d xs ->
  (fits n -> exists d', reserve W sizeof_T d (Z.of_nat n) = Done d' /\ n <= capacity d') /\
  (fits (length xs) -> exists d', shrink_to_fit W sizeof_T d = Done d' /\ capacity d' = length xs) /\
  (n <= capacity d -> 0 < n -> reserve W sizeof_T d (Z.of_nat n) = Done d).
Proof.
  rewrite deq_holds_repr. intros Hd. split; [|split].
  - intros Hf. destruct (reserve_cases W sizeof_T HW HS d xs n Hd (fits_bound n n Hf ltac:(lia))) as [(d' & E & Hr & Hc & _)|(E & Hq)]; [|contradiction].
    exists d'. split; [exact E|]. unfold capacity. bcases; lia.
  - intros Hf. destruct (shrink_cases W sizeof_T HW HS d xs Hd) as [(d' & E & Hr & Hc)|(E & Hq)]; [|contradiction]. eauto.
  - intros Hn Hn0. pose proof Hd as ((_ & _ & _ & _ & _ & S5) & _).
    assert (n < d_alloc d) by (revert Hn; unfold capacity; bcases; lia).
    destruct (reserve_cases W sizeof_T HW HS d xs n Hd ltac:(lia)) as [(d' & E & Hr & Hc & Hk)|(E & Hq)].
    + now rewrite (Hk H) in E.
    + exfalso. unfold reserve in E. replace (Z.of_nat n =? 0)%Z with false in E by lia.
      rewrite IntProofs.try_int_add_spec in E;
        [|apply (st_size_ok W HW)|cbv; discriminate|apply -> in_range_st; lia|cbv; split; discriminate].
      rewrite IntProofs.add_res_true in E by (apply -> in_range_st; lia). cbn [dopt fst snd] in E.
      replace (Z.of_nat n + 1 <=? Z.of_nat (d_alloc d))%Z with true in E by lia. discriminate.
Qed.

(* Iterators.  The position i of a deque of n elements (0 <= i <= n) is represented by
   begin() + i. *)
Definition pos (d : deq T) (i : nat) : nat := it_add W d (begin_ d) (Z.of_nat i).

Lemma pos_wrap d xs i : drepr W d xs -> i <= length xs -> pos d i = wrap d i.
Proof.
  intros Hd Hi. pose proof Hd as ((S1 & S2 & S2' & S3 & S4 & S5) & _). unfold pos, it_add, begin_.
  assert (unwrap d (d_offset d) = 0) by (unfold unwrap; bcases; lia). rewrite H.
  assert (Hs : (size_max W = 2 ^ W - 1)%Z) by reflexivity.
  f_equal. cbn [Z.of_nat]. rewrite Z.add_0_l, Z.mod_mod by lia. rewrite Z.mod_small by lia. lia.
Qed.

Theorem deque_iterators d xs i j : deq_holds d xs -> i <= length xs -> j <= length xs ->
  (2 * Z.of_nat (length xs) <= size_max W)%Z ->
  pos d 0 = begin_ d /\ pos d (length xs) = end_ d /\
  (i < length xs -> deref d (pos d i) = nth_error xs i) /\
  (i < length xs -> it_inc d (pos d i) = pos d (i + 1)) /\
  (0 < i -> it_dec d (pos d i) = pos d (i - 1)) /\
  it_add W d (pos d i) (Z.of_nat j - Z.of_nat i) = pos d j /\
  it_sub W d (pos d i) (Z.of_nat i - Z.of_nat j) = pos d j /\
  it_diff W d (pos d i) (pos d j) = (Z.of_nat i - Z.of_nat j)%Z /\
  (it_lt d (pos d i) (pos d j) = true <-> i < j) /\
  (pos d i = pos d j <-> i = j).
Proof.
  rewrite deq_holds_repr. intros Hd Hi Hj Hz. pose proof Hd as ((S1 & S2 & S2' & S3 & S4 & S5) & Hv).
  assert (Hs : (size_max W = 2 ^ W - 1)%Z) by reflexivity.
  assert (Hp : (2 ^ W = 2 * 2 ^ (W - 1))%Z).
  { rewrite <- Z.pow_succ_r by lia. f_equal. lia. }
  assert (P : forall k, k <= length xs -> pos d k = wrap d k) by (intros k; apply (pos_wrap d xs); exact Hd).
  destruct (wrap_unwrap W d xs i Hd Hi) as [U1 U2]. destruct (wrap_unwrap W d xs j Hd Hj) as [U3 U4].
  rewrite !(P i), !(P j), (P 0), (P (length xs)) by lia.
  split; [unfold wrap, begin_; bcases; lia|]. split; [unfold end_; now rewrite S3|].
  split. { intros H. unfold deref, fetch. rewrite Hv by (apply U2; lia). rewrite U1.
           destruct (nth_error_within xs i) as (x & ->); [lia|reflexivity]. }
  split. { intros H. rewrite P by lia. unfold it_inc, circular_inc, wrap. destruct (Nat.ltb_spec i (d_alloc d - d_offset d)); bcases; lia. }
  split. { intros H. rewrite P by lia. unfold it_dec, circular_dec, wrap. destruct (Nat.ltb_spec i (d_alloc d - d_offset d)); bcases; lia. }
  split. { unfold it_add. rewrite U1. f_equal. rewrite Zplus_mod_idemp_r. rewrite Z.mod_small by lia. lia. }
  split. { unfold it_sub. rewrite U1. f_equal. rewrite Zminus_mod_idemp_r. rewrite Z.mod_small by lia. lia. }
  split.
  { unfold it_diff. rewrite U1, U3. destruct (Z_le_gt_dec (Z.of_nat j) (Z.of_nat i)).
    - rewrite Z.mod_small by lia. replace (_ <? _)%Z with true by lia. reflexivity.
    - rewrite <- (Z.mod_unique (Z.of_nat i - Z.of_nat j) (2 ^ W) (-1) (Z.of_nat i - Z.of_nat j + 2 ^ W)) by lia.
      replace (_ <? _)%Z with false by lia. lia. }
  split; [unfold it_lt; rewrite U1, U3; apply Nat.ltb_lt|].
  split; [|congruence]. intros H. rewrite <- U1, <- U3. now rewrite H.
Qed.

(* Copying and moving *)
Theorem deque_copy_move d1 xs d2 ys : deq_holds d1 xs -> deq_holds d2 ys -> fits (length ys) ->
  (exists d', copy_construct W sizeof_T d2 = Done d' /\ deq_holds d' ys) /\
  (exists d', copy_assign W sizeof_T d1 (Some d2) = Done d' /\ deq_holds d' ys) /\
  deq_holds (fst (move_construct d2)) ys /\ deq_holds (snd (move_construct d2)) [] /\
  exists d' d2', move_assign d1 d2 = Some (d', d2') /\ deq_holds d' ys /\ deq_holds d2' [].
Proof.
  rewrite !deq_holds_repr. intros H1 H2 Hf. assert (HZ : (0 <= size_max W)%Z) by lia.
  pose proof H2 as ((_ & _ & _ & S3 & _) & _).
  assert (C : forall d, drepr W d [] -> exists d', append_copy W sizeof_T d (map Some ys) = Done d' /\ drepr W d' ys).
  { intros d Hd. destruct (append_copy_cases W sizeof_T HW HS d [] (map Some ys) Hd)
      as [(d' & y & -> & Ey & Hr)|(d' & -> & Hr & [Hq|Hq])]; rewrite ?map_length in *;
      [apply (fits_bound _ _ Hf); lia| | |contradiction]; rewrite seq_all_some in *; [|congruence].
    inversion Ey; subst. eauto. }
  assert (C' : forall r, (exists d', r = Done d' /\ drepr W d' ys) -> exists d', r = Done d' /\ deq_holds d' ys).
  { intros r (d' & E & H). exists d'. split; [exact E|now apply deq_holds_repr]. }
  split.
  { apply C'. unfold copy_construct. rewrite S3, (iterate_ok W d2 ys H2). cbn [dopt]. apply C. now apply dempty_repr. }
  split.
  { apply C'. unfold copy_assign. destruct (clear_ok W d1 xs H1) as (d1' & -> & Hr & _). cbn [dbind].
    rewrite S3, (iterate_ok W d2 ys H2). cbn [dopt]. now apply C. }
  split; [exact H2|]. split; [apply (dempty_repr W HZ)|].
  unfold move_assign. destruct (destroy_ok W d1 [] xs H1) as (m & E & L & I). cbn [length] in E. rewrite E. cbn [obind].
  rewrite all_free_idx.
  2:{ intros j Hj. rewrite I by lia. now rewrite nth_error_beyond by (cbn; lia). }
  eexists _, _. split; [reflexivity|]. rewrite !deq_holds_repr. split; [exact H2|apply (dempty_repr W HZ)].
Qed.

(* Copy assignment of a deque to itself empties it. *)
Theorem deque_self_assign_empties d xs : deq_holds d xs ->
  exists d', copy_assign W sizeof_T d None = Done d' /\ deq_holds d' [].
Proof.
  rewrite deq_holds_repr. intros Hd. unfold copy_assign.
  destruct (clear_ok W d xs Hd) as (d' & -> & Hr & _). cbn [dbind].
  pose proof Hr as ((_ & _ & _ & S3 & _) & _). rewrite S3, (iterate_ok W d' [] Hr). cbn [dopt map].
  assert (HZ : (0 <= size_max W)%Z) by lia.
  unfold append_copy. cbn [length].
  assert (E : reserve_extra W sizeof_T d' 0 = Done d').
  { unfold reserve_extra. rewrite S3. cbn [length Z.of_nat].
    rewrite IntProofs.try_int_add_spec; [|apply (st_size_ok W HW)..|apply -> in_range_st; lia|apply -> in_range_st; lia].
    rewrite IntProofs.add_res_true by (apply -> in_range_st; lia). reflexivity. }
  rewrite E. cbn [dbind].
  destruct (append_pieces_cases W sizeof_T HS d' [] [] (fun m from n p => uninit_safe_copy m (firstn n (skipn from [])) p) Hr) as [(d2 & ys & E2 & Ey & Hr2)|[_ Hn]].
  - intros m from n p Hb Hfr. cbn [length] in Hb. replace from with 0 by lia. replace n with 0 by lia.
    left. exists m, []. split; [reflexivity|]. split; [reflexivity|]. split; [reflexivity|]. intros j. now rewrite inr_0.
  - cbn [length]. lia.
  - exists d2. split; [exact E2|]. apply deq_holds_repr. inversion Ey; subst. exact Hr2.
  - discriminate.
Qed.

(* erase().  The cases in which it works: the contents are contiguous, or the range to be
   erased lies on the side of the wrap-around point from which elements are moved, or
   (when later elements are moved) enough elements lie beyond the wrap-around point. *)
Definition erasable (d : deq T) (b e : nat) : Prop :=
  let top := d_alloc d - d_offset d in
  b = e \/ d_size d <= top \/
  if d_size d - e <=? b then top <= e \/ e - b <= d_size d - top else e <= top \/ b <= top.

(* The full claim is: for all b <= e <= length xs, erase yields the elements outside of
   the range.  This holds under the condition erasable only. *)
Theorem deque_erase_partial d xs b e : deq_holds d xs -> b <= e <= length xs -> erasable d b e ->
  exists d', erase d (pos d b) (pos d e) = Some (d', pos d' b) /\ deq_holds d' (firstn b xs ++ skipn e xs).
Proof.
  rewrite deq_holds_repr. intros Hd Hbe Hok. pose proof Hd as ((_ & _ & _ & S3 & _) & _).
  rewrite !(pos_wrap d xs) by (assumption || lia). unfold erase.
  rewrite (proj1 (wrap_unwrap W d xs b Hd ltac:(lia))), (proj1 (wrap_unwrap W d xs e Hd ltac:(lia))).
  replace (b <=? e) with true by lia. rewrite S3. replace (e <=? length xs) with true by lia. cbn [negb].
  assert (F : forall d', drepr W d' (firstn b xs ++ skipn e xs) -> pos d' b = wrap d' b).
  { intros d' Hr. apply (pos_wrap d' _ b Hr). rewrite erased_length by lia. lia. }
  destruct (Nat.eqb_spec b e) as [->|Hne]; cbn [negb obind].
  { assert (Hr : drepr W d (firstn e xs ++ skipn e xs)) by now rewrite firstn_skipn.
    exists d. rewrite (F d Hr), deq_holds_repr. auto. }
  unfold do_erase. replace (b =? e) with false by lia. cbn [negb]. rewrite S3.
  unfold erasable in Hok. rewrite S3 in Hok. destruct Hok as [?|Hok]; [lia|].
  assert (He : e = b + (e - b)) by lia.
  destruct (Nat.leb_spec (length xs - e) b).
  - destruct (erase_near_back_ok W d xs b (e - b) Hd) as (d' & E & Hr); [lia|lia| |].
    { unfold back_ok. rewrite S3. lia. }
    rewrite <- He in E, Hr. rewrite E. cbn [obind]. exists d'. rewrite (F d' Hr), deq_holds_repr. auto.
  - destruct (erase_near_front_ok W d xs b (e - b) Hd) as (d' & E & Hr); [lia|lia| |].
    { unfold front_ok. rewrite S3. lia. }
    rewrite <- He in E, Hr. rewrite E. cbn [obind]. exists d'. rewrite (F d' Hr), deq_holds_repr. auto.
Qed.

(* In all other cases it accesses a slot that holds no element. *)
Theorem deque_erase_wrong d xs b e : deq_holds d xs -> b <= e <= length xs -> ~ erasable d b e ->
  erase d (pos d b) (pos d e) = None.
Proof.
  rewrite deq_holds_repr. intros Hd Hbe Hok. pose proof Hd as ((_ & _ & _ & S3 & _) & _).
  rewrite !(pos_wrap d xs) by (assumption || lia). unfold erase.
  rewrite (proj1 (wrap_unwrap W d xs b Hd ltac:(lia))), (proj1 (wrap_unwrap W d xs e Hd ltac:(lia))).
  replace (b <=? e) with true by lia. rewrite S3. replace (e <=? length xs) with true by lia. cbn [negb].
  unfold erasable in Hok. rewrite S3 in Hok.
  replace (b =? e) with false by lia. cbn [negb].
  unfold do_erase. replace (b =? e) with false by lia. cbn [negb]. rewrite S3.
  assert (He : e = b + (e - b)) by lia.
  destruct (Nat.leb_spec (length xs - e) b).
  - assert (E : erase_near_back d b e = None); [|now rewrite E].
    rewrite He. apply (erase_near_back_ub W d xs); [exact Hd|lia|lia|]. unfold back_ok. rewrite S3. lia.
  - assert (E : erase_near_front d b e = None); [|now rewrite E].
    rewrite He. apply (erase_near_front_ub W d xs); [exact Hd|lia|lia|]. unfold front_ok. rewrite S3. lia.
Qed.

End Props.

(* Examples *)

Definition ex_ops : list (dop nat) :=
  [EmplaceBack (Some 1); EmplaceFront (Some 0); AppendCopy (map Some [2; 3; 4]); PopFront; PopBack;
   AppendFill 3 (fun i => Some (10 + i)); AppendInput [Some 20; Some 21]; EmplaceFront (Some 7);
   Resize 12 (fun i => Some (30 + i)); Reserve 20; Resize 5 (fun _ => None); ShrinkToFit].

Example deque_history_ex : drun (fits 32 8) ex_ops [] [7; 1; 2; 3; 10] /\
  exists d, do_ops 32 8 dempty ex_ops = Done d /\ iterate 6 d (begin_ d) = Some [7; 1; 2; 3; 10].
Proof.
  split.
  - repeat (eapply r_cons;
      [ first [ apply s_emplace_back | apply s_emplace_front | apply (s_append_copy [2; 3; 4]) | apply s_pop_front
              | apply (s_pop_back 4 [1; 2; 3]) | apply (s_append_fill 3 _ [10; 11; 12]); reflexivity
              | apply (s_append_input [20; 21])
              | apply (s_resize_up 12 _ [7; 1; 2; 3; 10; 11; 12; 20; 21] [30; 31; 32]); [repeat constructor|reflexivity]
              | apply s_reserve
              | apply (s_resize_down 5 _ [7; 1; 2; 3; 10] [11; 12; 20; 21; 30; 31; 32]); reflexivity
              | apply s_shrink ]
      | cbv; discriminate | cbn [app] ]).
    apply r_nil.
  - eexists. split; vm_compute; reflexivity.
Qed.

(* a throwing constructor in the second piece of a divided append *)
Example deque_exception_ex :
  let d := Deq [None; None; None; Some 5; Some 6] 3 2 5 in
  deq_holds 32 d [5; 6] /\
  do_op 32 8 d (AppendCopy [Some 1; None]) = Throw d /\
  let d := Deq [None; None; None; Some 6; None] 3 1 5 in
  deq_holds 32 d [6] /\ do_op 32 8 d (AppendCopy [Some 1; Some 2; None]) = Throw d.
Proof.
  cbn zeta. repeat split; try reflexivity; try (cbv; discriminate); right; cbn [d_offset d_alloc d_mem length];
    (split; [repeat constructor|split; [repeat constructor|]]); intros i Hi;
    do 5 (destruct i as [|i]; [reflexivity|]); lia.
Qed.

Example deque_capacity_ex :
  let d := Deq [Some 8; None; Some 5; Some 6; Some 7] 2 4 5 in
  deq_holds 32 d [5; 6; 7; 8] /\ fits 32 8 20 /\ capacity d = 4 /\
  exists d', reserve 32 8 d 20 = Done d' /\ capacity d' = 20.
Proof.
  cbn zeta. split; [|split; [cbv; discriminate|split; [reflexivity|eexists; split; vm_compute; reflexivity]]].
  split; [reflexivity|]. split; [reflexivity|]. split; [cbv; discriminate|]. right.
  split; [repeat constructor|split; [repeat constructor|]]. cbn [d_alloc]. intros i Hi.
  do 5 (destruct i as [|i]; [reflexivity|]). lia.
Qed.

Example deque_iterators_ex :
  let d := Deq [Some 8; None; Some 5; Some 6; Some 7] 2 4 5 in
  map (pos 32 d) (seq 0 5) = [2; 3; 4; 0; 1] /\
  it_diff 32 d (pos 32 d 1) (pos 32 d 3) = (-2)%Z /\ deref d (pos 32 d 3) = Some 8.
Proof. repeat split; reflexivity. Qed.

Example deque_copy_ex :
  let d := Deq [Some 8; None; Some 5; Some 6; Some 7] 2 4 5 in
  match copy_construct 32 8 d with Done d' => iterate 5 d' (begin_ d') = Some [5; 6; 7; 8] | _ => False end.
Proof. reflexivity. Qed.

(* Self-assignment does not preserve the elements. *)
Theorem deque_self_assign_refuted : exists (d d' : deq nat) x, deq_holds 32 d [x] /\
  copy_assign 32 8 d None = Done d' /\ deq_holds 32 d' [].
Proof.
  assert (H : deq_holds 32 (Deq [Some 5; None] 0 1 2) [5]).
  { split; [reflexivity|]. split; [reflexivity|]. split; [cbv; discriminate|]. right. cbn [d_alloc d_offset length].
    split; [lia|]. split; [lia|]. intros i Hi. do 2 (destruct i as [|i]; [reflexivity|]). lia. }
  destruct (deque_self_assign_empties 32 8 ltac:(lia) ltac:(cbv; split; discriminate) _ _ H) as (d' & E & H').
  exists (Deq [Some 5; None] 0 1 2), d', 5. auto.
Qed.

(* erase() on both sides of the condition *)
Definition ex_wrapped (offset size : nat) : deq nat :=
  let slot j := let i := (j + 12 - offset) mod 12 in if i <? size then Some i else None in
  Deq (map slot (seq 0 12)) offset size 12.

Example ex_wrapped_holds : deq_holds 32 (ex_wrapped 10 11) (seq 0 11) /\ deq_holds 32 (ex_wrapped 3 10) (seq 0 10).
Proof.
  split; (split; [reflexivity|split; [reflexivity|split; [cbv; discriminate|right]]]); cbn [d_alloc d_offset ex_wrapped];
    (split; [lia|split; [rewrite seq_length; lia|]]); intros i Hi; do 12 (destruct i as [|i]; [reflexivity|]); lia.
Qed.

Example deque_erase_ex :
  erasable (ex_wrapped 10 11) 1 4 /\
  match erase (ex_wrapped 10 11) (pos 32 (ex_wrapped 10 11) 1) (pos 32 (ex_wrapped 10 11) 4) with
  | Some (d, it) => iterate 9 d (begin_ d) = Some [0; 4; 5; 6; 7; 8; 9; 10] /\ deref d it = Some 4
  | None => False
  end.
Proof. split; [right; right; cbv; right; lia|split; reflexivity]. Qed.

Theorem deque_erase_refuted :
  (exists (d : deq nat) xs b e, deq_holds 32 d xs /\ b <= e <= length xs /\
     length xs - e > b /\ erase d (pos 32 d b) (pos 32 d e) = None) /\
  (exists (d : deq nat) xs b e, deq_holds 32 d xs /\ b <= e <= length xs /\
     length xs - e <= b /\ erase d (pos 32 d b) (pos 32 d e) = None).
Proof.
  destruct ex_wrapped_holds as [H1 H2]. split.
  - exists (ex_wrapped 10 11), (seq 0 11), 4, 5. rewrite seq_length.
    split; [exact H1|]. split; [lia|]. split; [lia|]. reflexivity.
  - exists (ex_wrapped 3 10), (seq 0 10), 5, 8. rewrite seq_length.
    split; [exact H2|]. split; [lia|]. split; [lia|]. reflexivity.
Qed.

Print Assumptions deque_step.
Print Assumptions deque_history.
Print Assumptions deque_exception_safe.
Print Assumptions deque_capacity.
Print Assumptions deque_iterators.
Print Assumptions deque_copy_move.
Print Assumptions deque_self_assign_empties.
Print Assumptions deque_self_assign_refuted.
Print Assumptions deque_erase_partial.
Print Assumptions deque_erase_wrong.
Print Assumptions deque_erase_refuted.
