(* Theorems about Vector (C25). *)
From Coq Require Import ZArith List Bool Arith Lia ZifyBool.
From Verif Require Import CInt IntModel BufferModel ArrLib UninitModel UninitProofs VectorModel VectorSpec VectorProofs.
Import ListNotations.
Open Scope nat_scope.

Section Props.
Context {T : Type}.
Context (W : Z) (sizeof_T : Z).
Context (HW : (1 <= W)%Z) (HS : (0 <= sizeof_T <= size_max W)%Z).

Definition do_op (v : vec T) (o : vop T) : outcome (vec T) :=
  match o with
  | EmplaceBack x => emplace_back W sizeof_T v x
  | PopBack => pop_back v
  | AppendFill n make => append_fill W sizeof_T v n make
  | AppendCopy src => append_copy W sizeof_T v src
  | AppendInput src => append_input W sizeof_T v src
  | Insert offset x => insert W sizeof_T v offset x
  | EraseRange b e => erase_range v b e
  | Clear => clear v
  | Resize n make => resize W sizeof_T v n make
  | Reserve n => reserve W sizeof_T v n
  | ShrinkToFit => shrink_to_fit W sizeof_T v
  end.

Fixpoint do_ops (v : vec T) (os : list (vop T)) : outcome (vec T) :=
  match os with
  | [] => Done v
  | o :: os => match do_op v o with Done v => do_ops v os | r => r end
  end.

(* The vector holds exactly the sequence xs: slot i holds element i of xs, and the slots
   from the size onwards are uninitialised. *)
Definition vec_holds (v : vec T) (xs : list T) : Prop :=
  v_size v = length xs /\ length xs <= v_capacity v <= length (v_mem v) /\
  (Z.of_nat (v_capacity v) <= size_max W)%Z /\
  forall i, i < length (v_mem v) -> nth_error (v_mem v) i = Some (nth_error xs i).

Lemma nth_error_ext {A} (a b : list A) : (forall i, nth_error a i = nth_error b i) -> a = b.
Proof.
  revert b. induction a as [|x a IH]; intros [|y b] H; [reflexivity|now specialize (H 0)|now specialize (H 0)|].
  pose proof (H 0) as H0. cbn in H0. inversion H0; subst. f_equal. apply IH. intros i. exact (H (S i)).
Qed.

Lemma vec_holds_repr v xs : vec_holds v xs <-> repr W v xs.
Proof.
  assert (K : forall i k, length xs <= i -> i < length xs + k ->
    nth_error (map Some xs ++ repeat None k) i = Some (nth_error xs i)).
  { intros i k H1 H2. rewrite nth_error_app2 by (rewrite map_length; lia). rewrite map_length.
    rewrite (proj2 (nth_error_None xs i)) by lia.
    rewrite nth_error_repeat by lia. reflexivity. }
  assert (K2 : forall i k, i < length xs ->
    nth_error (map Some xs ++ repeat None k) i = Some (nth_error xs i)).
  { intros i k H1. rewrite nth_error_app1 by now rewrite map_length. rewrite nth_error_map.
    destruct (nth_error xs i) eqn:E; [reflexivity|]. apply nth_error_None in E. lia. }
  split; intros (H1 & H2 & H3 & H4); split; [exact H1| |exact H1|]; split; [lia| |lia|]; split; [exact H3| |exact H3|].
  - apply nth_error_ext. intros i. destruct (Nat.lt_ge_cases i (length (v_mem v))) as [Hi|Hi].
    + rewrite H4 by exact Hi. destruct (Nat.lt_ge_cases i (length xs)); [now rewrite K2|now rewrite K by lia].
    + rewrite (proj2 (nth_error_None _ _) Hi). symmetry. apply nth_error_None.
      rewrite app_length, map_length, repeat_length. lia.
  - intros i Hi. rewrite H4. destruct (Nat.lt_ge_cases i (length xs)); [now rewrite K2|now rewrite K by lia].
Qed.

(* Enough room to make n elements fit without a size overflowing *)
Definition fits (n : nat) : Prop := (2 * Z.of_nat n * Z.max 1 sizeof_T <= size_max W)%Z.

Lemma seq_all_map (l : list (option T)) (ys : list T) : l = map Some ys -> seq_all l = Some ys.
Proof. intros ->. apply seq_all_some. Qed.

Lemma skipn_skipn' {A} (l : list A) m n : skipn m (skipn n l) = skipn (n + m) l.
Proof. revert l. induction n as [|n IH]; intros [|x l]; cbn; rewrite ?skipn_nil; auto. Qed.

Lemma fits_bound n m : fits (n + m) -> (Z.of_nat m <= size_max W)%Z.
Proof. unfold fits. nia. Qed.

(* The full claim, for one operation, apart from resizing upwards from a non-empty
   vector, which is wrong (see vector_resize_refuted below). *)
Theorem vector_step_partial v xs o ys : vec_holds v xs -> vstep o xs ys -> resize_ok o xs ->
  fits (demand o xs) ->
  exists v', do_op v o = Done v' /\ vec_holds v' ys.
Proof.
  intros Hv Hs Hok Hf. rewrite vec_holds_repr in Hv.
  assert (G : forall r, (exists v', r = Done v' /\ repr W v' ys) -> exists v', r = Done v' /\ vec_holds v' ys).
  { intros r (v' & E & Hr). exists v'. split; [exact E|]. now apply vec_holds_repr. }
  destruct Hs; unfold demand in Hf; cbn [do_op]; apply G; clear G.
  - destruct (emplace_back_cases W sizeof_T HW HS v xs (Some x) Hv)
      as [(v' & y & -> & Ey & Hr & _)|(v' & -> & Hr & [Hq|Hq])]; [|discriminate|contradiction].
    inversion Ey; subst. eauto.
  - destruct (pop_back_ok W v xs x Hv) as (v' & -> & Hr). eauto.
  - pose proof (seq_all_map _ _ H) as E.
    destruct (append_fill_cases W sizeof_T HW HS v xs n make Hv (fits_bound _ _ Hf))
      as [(v' & y & -> & Ey & Hr & _)|(v' & -> & Hr & [Hq|Hq])]; [|congruence|contradiction].
    replace y with ys in * by congruence. eauto.
  - destruct (append_copy_cases W sizeof_T HW HS v xs (map Some ys) Hv (fits_bound _ _ Hf))
      as [(v' & y & -> & Ey & Hr & _)|(v' & -> & Hr & [Hq|Hq])];
      try rewrite seq_all_some in *; [|congruence|contradiction].
    replace y with ys in * by congruence. eauto.
  - destruct (append_input_cases W sizeof_T HW HS (map Some ys) v xs Hv)
      as [(v' & y & -> & Ey & Hr)|(v' & y & zs & -> & _ & Hr & [Hq|Hq])];
      try rewrite seq_all_some in *; [|congruence|contradiction].
    replace y with ys in * by congruence. eauto.
  - destruct (insert_cases W sizeof_T HW HS v xs ys (Some x) Hv)
      as [(v' & y & -> & Ey & Hr & _)|(v' & -> & Hr & [Hq|Hq])]; [|discriminate|contradiction].
    inversion Ey; subst. eauto.
  - destruct (erase_ok W v xs ys zs Hv) as (v' & -> & Hr & _). eauto.
  - destruct (clear_ok W v xs Hv) as (v' & -> & Hr & _). eauto.
  - subst n. destruct (resize_down_ok W sizeof_T v xs ys make Hv) as (v' & -> & Hr & _). eauto.
  - destruct Hok as [Hok| ->]; [lia|]. cbn [length app Nat.add Nat.sub] in *.
    rewrite Nat.sub_0_r in *.
    pose proof (seq_all_map _ _ H0) as E.
    destruct (resize_up_empty W sizeof_T HW HS v n make Hv H (fits_bound 0 _ Hf))
      as [(v' & y & -> & Ey & Hr & _)|(v' & -> & Hr & [Hq|Hq])]; [|congruence|contradiction].
    replace y with ys in * by congruence. eauto.
  - destruct (reserve_cases W sizeof_T HW HS v xs n Hv (fits_bound _ _ Hf))
      as [(v' & -> & Hr & _)|(-> & Hq)]; [|contradiction]. eauto.
  - rewrite Nat.add_0_r in Hf.
    destruct (shrink_cases W sizeof_T HW HS v xs Hv) as [(v' & -> & Hr & _)|(-> & Hq)]; [|contradiction]. eauto.
Qed.

(* From an empty vector, any sequence of operations yields the elements that the
   mathematical sequence would hold, in order; at() sees exactly them; destroying the
   vector destroys every element exactly once and leaves nothing behind. *)
Theorem vector_history_partial N os ys : (Z.of_nat N <= size_max W)%Z ->
  vrun resize_ok fits os [] ys ->
  exists v, do_ops (vempty N) os = Done v /\ vec_holds v ys /\
    (forall i, at_ v i = match nth_error ys i with Some x => Done (Some x) | None => Throw None end) /\
    destroy v = Some (repeat None (length (v_mem v))).
Proof.
  intros HN H.
  assert (G : forall v xs, vec_holds v xs -> vrun resize_ok fits os xs ys ->
    exists v', do_ops v os = Done v' /\ vec_holds v' ys).
  { clear H. revert ys. induction os as [|o os IH]; intros zs v xs Hv Hr; inversion Hr as [|o' os' xs' ys' zs' S1 S2 S3 S4]; subst.
    - exists v. split; [reflexivity|exact Hv].
    - destruct (vector_step_partial v xs o _ Hv S1 S2 S3) as (v1 & E & Hv1). cbn [do_ops]. rewrite E.
      eapply IH; eassumption. }
  destruct (G (vempty N) [] (proj2 (vec_holds_repr _ _) (repr_empty W N HN)) H) as (v & E & Hv).
  exists v. split; [exact E|]. split; [exact Hv|]. apply vec_holds_repr in Hv. split.
  - intros i. now apply (repr_at W).
  - now apply (repr_destroy W v ys).
Qed.

(* Whatever happens, an operation that throws leaves the elements as they were (an
   append through input iterators leaves those it had already appended); and it throws
   only if a constructor does, or if the required size is too large. *)
Theorem vector_exception_safe v xs o v' : vec_holds v xs -> resize_ok o xs ->
  match o with PopBack => xs <> [] | Insert offset _ => offset <= length xs
             | EraseRange b e => b <= e <= length xs | _ => True end ->
  (Z.of_nat (demand o xs) <= size_max W)%Z ->
  do_op v o = Throw v' ->
  (exists ys, vec_holds v' (xs ++ ys) /\ (ys = [] \/ exists zs, o = AppendInput (map Some ys ++ zs))) /\
  ((exists ys, vstep o xs ys) -> ~ fits (demand o xs)).
Proof.
  intros Hv Hok Hpre Hd E. rewrite vec_holds_repr in Hv.
  assert (G : repr W v' xs -> exists ys, vec_holds v' (xs ++ ys) /\
                (ys = [] \/ exists zs, o = AppendInput (map Some ys ++ zs))).
  { intros Hr. exists []. rewrite app_nil_r. split; [now apply vec_holds_repr|now left]. }
  assert (N : forall r, r = Done v -> r <> Throw v') by congruence.
  destruct o; cbn [do_op] in E; unfold demand in *.
  - destruct (emplace_back_cases W sizeof_T HW HS v xs x Hv)
      as [(w & y & Ew & _)|(w & Ew & Hr & Hq)]; rewrite Ew in E; [discriminate|]. inversion E; subst w.
    split; [auto|]. intros (ys & Hs). inversion Hs; subst. destruct Hq; [discriminate|assumption].
  - destruct xs as [|x xs _] using rev_ind; [congruence|].
    destruct (pop_back_ok W v xs x Hv) as (w & Ew & _). rewrite Ew in E. discriminate.
  - destruct (append_fill_cases W sizeof_T HW HS v xs n make Hv ltac:(lia))
      as [(w & y & Ew & _)|(w & Ew & Hr & Hq)]; rewrite Ew in E; [discriminate|]. inversion E; subst w.
    split; [auto|]. intros (ys & Hs). inversion Hs; subst.
    match goal with H : map make _ = map Some _ |- _ => apply seq_all_map in H end.
    destruct Hq; [congruence|assumption].
  - destruct (append_copy_cases W sizeof_T HW HS v xs src Hv ltac:(lia))
      as [(w & y & Ew & _)|(w & Ew & Hr & Hq)]; rewrite Ew in E; [discriminate|]. inversion E; subst w.
    split; [auto|]. intros (ys & Hs). inversion Hs; subst. rewrite seq_all_some in Hq.
    destruct Hq; [congruence|assumption].
  - destruct (append_input_cases W sizeof_T HW HS src v xs Hv)
      as [(w & y & Ew & _)|(w & y & zs & Ew & Es & Hr & Hq)]; rewrite Ew in E; [discriminate|].
    inversion E; subst w. split.
    + exists y. split; [now apply vec_holds_repr|]. right. exists zs. now rewrite Es.
    + intros (ys & Hs). inversion Hs; subst.
      match goal with H : map Some _ = map Some y ++ zs |- _ => rewrite <- H in Hq end.
      rewrite seq_all_some in Hq. destruct Hq; [congruence|assumption].
  - rewrite <- (firstn_skipn offset xs) in Hv.
    assert (Hl : length (firstn offset xs) = offset) by (rewrite firstn_length; lia).
    rewrite <- Hl in E.
    destruct (insert_cases W sizeof_T HW HS v _ _ x Hv)
      as [(w & y & Ew & _)|(w & Ew & Hr & Hq)]; rewrite Ew in E; [discriminate|]. inversion E; subst w.
    rewrite firstn_skipn in Hr, Hq.
    split; [auto|]. intros (ys & Hs). inversion Hs; subst. destruct Hq; [discriminate|assumption].
  - assert (Ex : xs = firstn b xs ++ firstn (e - b) (skipn b xs) ++ skipn e xs).
    { rewrite <- (firstn_skipn b xs) at 1. f_equal. rewrite <- (firstn_skipn (e - b) (skipn b xs)) at 1.
      f_equal. rewrite skipn_skipn'. f_equal. lia. }
    rewrite Ex in Hv. destruct (erase_ok W v _ _ _ Hv) as (w & Ew & _).
    rewrite !firstn_length, skipn_length in Ew.
    replace (Nat.min b (length xs)) with b in Ew by lia.
    replace (b + Nat.min (e - b) (length xs - b)) with e in Ew by lia.
    rewrite Ew in E. discriminate.
  - destruct (clear_ok W v xs Hv) as (w & Ew & _). rewrite Ew in E. discriminate.
  - cbn [resize_ok] in Hok. destruct (Nat.le_gt_cases n (length xs)) as [Hn|Hn].
    + rewrite <- (firstn_skipn n xs) in Hv.
      destruct (resize_down_ok W sizeof_T v _ _ make Hv) as (w & Ew & _).
      rewrite firstn_length in Ew. replace (Nat.min n (length xs)) with n in Ew by lia.
      rewrite Ew in E. discriminate.
    + destruct Hok as [Hok| ->]; [lia|]. cbn [length] in *.
      destruct (resize_up_empty W sizeof_T HW HS v n make Hv Hn ltac:(lia))
        as [(w & y & Ew & _)|(w & Ew & Hr & Hq)]; rewrite Ew in E; [discriminate|]. inversion E; subst w.
      split; [auto|]. intros (ys & Hs). inversion Hs; subst; [destruct ys; cbn in *; [lia|discriminate]|].
      cbn [length] in *. rewrite Nat.sub_0_r in *.
      match goal with H : map make _ = map Some _ |- _ => apply seq_all_map in H end.
      destruct Hq; [congruence|assumption].
  - destruct (reserve_cases W sizeof_T HW HS v xs n Hv ltac:(lia))
      as [(w & Ew & _)|(Ew & Hq)]; rewrite Ew in E; [discriminate|]. inversion E; subst v'. auto.
  - destruct (shrink_cases W sizeof_T HW HS v xs Hv) as [(w & Ew & _)|(Ew & Hq)]; rewrite Ew in E; [discriminate|].
    inversion E; subst v'. rewrite Nat.add_0_r. auto.
Qed.

(* "A modifying operation does not cause a reallocation of memory if the final size is
   less than, or equal to the original capacity." *)
Theorem vector_no_realloc v xs o ys v' : vec_holds v xs -> vstep o xs ys -> resize_ok o xs ->
  fits (demand o xs) -> o <> ShrinkToFit -> (forall n, o = Reserve n -> n <= v_capacity v) ->
  length ys <= v_capacity v ->
  do_op v o = Done v' -> v_capacity v' = v_capacity v /\ v_owned v' = v_owned v.
Proof.
  intros Hv Hs Hok Hf Hns Hnr Hl E. rewrite vec_holds_repr in Hv.
  destruct Hs; unfold demand in Hf; cbn [do_op] in E; rewrite ?app_length in Hl; cbn [length] in Hl.
  - destruct (emplace_back_cases W sizeof_T HW HS v xs (Some x) Hv)
      as [(w & y & Ew & Ey & Hr & Hc)|(w & Ew & _)]; rewrite Ew in E; [|discriminate].
    inversion E; subst w. auto.
  - unfold pop_back in E. destruct (negb _); [discriminate|]. destruct (uninit_destroy _ _ _); [|discriminate].
    inversion E; subst. split; reflexivity.
  - destruct (append_fill_cases W sizeof_T HW HS v xs n make Hv (fits_bound _ _ Hf))
      as [(w & y & Ew & Ey & Hr & Hc)|(w & Ew & _)]; rewrite Ew in E; [|discriminate].
    inversion E; subst w. apply Hc. apply (f_equal (@length _)) in H. rewrite !map_length, seq_length in H. lia.
  - destruct (append_copy_cases W sizeof_T HW HS v xs (map Some ys) Hv (fits_bound _ _ Hf))
      as [(w & y & Ew & Ey & Hr & Hc)|(w & Ew & _)]; rewrite Ew in E; [|discriminate].
    inversion E; subst w. apply Hc. rewrite map_length. lia.
  - clear Hf Hns Hnr Hok. revert v xs Hv Hl E. induction ys as [|y ys IH]; intros v xs Hv Hl E.
    + inversion E; subst. split; reflexivity.
    + cbn [map append_input length] in *.
      destruct (emplace_back_cases W sizeof_T HW HS v xs (Some y) Hv)
        as [(w & z & Ew & Ez & Hr & Hc)|(w & Ew & _)]; rewrite Ew in E; [|discriminate].
      cbn [vbind] in E. destruct (Hc ltac:(lia)) as [Hc1 Hc2].
      destruct (IH w (xs ++ [z]) Hr) as [I1 I2]; [rewrite app_length; cbn; lia|exact E|]. split; congruence.
  - destruct (insert_cases W sizeof_T HW HS v xs ys (Some x) Hv)
      as [(w & y & Ew & Ey & Hr & Hc)|(w & Ew & _)]; rewrite Ew in E; [|discriminate].
    inversion E; subst w. apply Hc. rewrite app_length. lia.
  - destruct (erase_ok W v xs ys zs Hv) as (w & Ew & Hr & Hc). rewrite Ew in E. inversion E; subst w. exact Hc.
  - destruct (clear_ok W v xs Hv) as (w & Ew & Hr & Hc). rewrite Ew in E. inversion E; subst w. exact Hc.
  - subst n. destruct (resize_down_ok W sizeof_T v xs ys make Hv) as (w & Ew & Hr & Hc).
    rewrite Ew in E. inversion E; subst w. exact Hc.
  - destruct Hok as [Hok| ->]; [lia|]. cbn [length app Nat.add Nat.sub] in *. rewrite Nat.sub_0_r in *.
    destruct (resize_up_empty W sizeof_T HW HS v n make Hv H (fits_bound 0 _ Hf))
      as [(w & y & Ew & Ey & Hr & Hc)|(w & Ew & _)]; rewrite Ew in E; [|discriminate].
    inversion E; subst w. apply Hc. apply (f_equal (@length _)) in H0. rewrite !map_length, seq_length in H0. lia.
  - unfold reserve in E. specialize (Hnr n eq_refl). replace (n <=? v_capacity v) with true in E by lia.
    inversion E; subst. split; reflexivity.
  - congruence.
Qed.

(* reserve() and shrink_to_fit() *)
Theorem vector_capacity v xs n : vec_holds v xs -> fits (length xs + n) ->
  (exists v', do_op v (Reserve n) = Done v' /\ n <= v_capacity v') /\
  (exists v', do_op v ShrinkToFit = Done v' /\ (v_owned v = true -> v_capacity v' = length xs)).
Proof.
  intros Hv Hf. rewrite vec_holds_repr in Hv. cbn [do_op]. split.
  - destruct (reserve_cases W sizeof_T HW HS v xs n Hv (fits_bound _ _ Hf))
      as [(v' & -> & Hr & Hn & _)|(-> & Hq)]; [|contradiction]. eauto.
  - destruct (shrink_cases W sizeof_T HW HS v xs Hv) as [(v' & -> & Hr & Hc)|(-> & Hq)]; [eauto|].
    exfalso. apply Hq. unfold fits, roomy in *. nia.
Qed.

(* Moving a vector hands over the elements and leaves an empty vector without live
   objects behind. *)
Theorem vector_move N other xs : vec_holds other xs -> (v_owned other = false -> length (v_mem other) = N) ->
  (Z.of_nat N <= size_max W)%Z ->
  exists v rest, move_from N other = Some (v, rest) /\ vec_holds v xs /\ vec_holds rest [] /\
    all_free (v_mem rest) = true.
Proof.
  intros Hv HN Hmax. rewrite vec_holds_repr in Hv. pose proof Hv as (H1 & H2 & H3 & H4).
  unfold move_from. destruct (v_owned other); cbn [negb].
  - eexists _, _. split; [reflexivity|]. rewrite !vec_holds_repr. split; [|split; [|reflexivity]].
    + unfold repr. cbn [v_size v_capacity v_mem]. auto.
    + unfold repr. cbn. split; [reflexivity|]. split; [lia|]. split; [lia|reflexivity].
  - specialize (HN eq_refl). destruct (mem_split0 W other xs Hv) as (k & Hm & Hk). rewrite Hm, H1.
    replace (repeat None N) with ([] ++ repeat (@None T) (length xs) ++ repeat None k)
      by (cbn [app]; rewrite <- repeat_app; f_equal; lia).
    change (map Some xs ++ repeat None k) with ([] ++ map Some xs ++ repeat None k).
    rewrite move_mid by reflexivity. cbn [obind fst snd app].
    eexists _, _. split; [reflexivity|]. rewrite !vec_holds_repr. split; [|split].
    + unfold repr. cbn [v_size v_capacity v_mem]. rewrite app_length, map_length, repeat_length.
      split; [reflexivity|]. split; [lia|]. split; [lia|]. do 2 f_equal. lia.
    + unfold repr. cbn [v_size v_capacity v_mem length map app]. rewrite <- repeat_app, repeat_length.
      split; [reflexivity|]. split; [lia|]. split; [lia|]. f_equal. lia.
    + cbn [v_mem]. rewrite <- repeat_app. apply all_free_free.
Qed.

(* Resizing upwards from a non-empty vector constructs `size` elements behind the
   existing ones, rather than size - m_size.  If they do not fit in the memory block,
   it writes past its end; this happens whenever the new size is within the memory block
   but the sum of the sizes is not. *)
Theorem vector_resize_overrun v xs n make : vec_holds v xs -> (forall i, make i <> None) ->
  length xs < n <= v_capacity v -> length (v_mem v) < length xs + n ->
  do_op v (Resize n make) = UB.
Proof.
  intros Hv Hm Hn Hl. rewrite vec_holds_repr in Hv. destruct Hv as (H1 & H2 & H3 & H4).
  cbn [do_op]. unfold resize. rewrite H1. replace (n <=? length xs) with false by lia.
  unfold reserve. replace (n <=? v_capacity v) with true by lia. cbn [vbind].
  unfold uninit_safe_fill. rewrite H1, fill_oob; [reflexivity|lia|lia|exact Hm].
Qed.

End Props.

(* A vector of 64-bit words with static capacity 2 *)
Example vector_history_ex :
  let os := [EmplaceBack (Some 1); AppendFill 2 (fun _ => Some 5); Insert 1 (Some 7); EraseRange 0 1;
             AppendCopy [Some 8; Some 9]; PopBack; Resize 3 (fun _ => Some 0); ShrinkToFit; Reserve 10] in
  vrun resize_ok (fits 64 8) os [] [7; 5; 5] /\
  exists v, do_ops 64 8 (vempty 2) os = Done v /\ v_capacity v = 13 /\ at_ v 1 = Done (Some 5) /\ at_ v 3 = Throw None.
Proof.
  split.
  - eapply r_cons; [apply s_emplace_back|exact I|unfold fits, size_max; cbn; lia|].
    eapply r_cons; [apply (s_append_fill 2 _ [5; 5]); reflexivity|exact I|unfold fits, size_max; cbn; lia|].
    eapply r_cons; [apply (s_insert 7 [1] [5; 5])|exact I|unfold fits, size_max; cbn; lia|].
    eapply r_cons; [apply (s_erase [] [1] [7; 5; 5])|exact I|unfold fits, size_max; cbn; lia|].
    eapply r_cons; [apply (s_append_copy [8; 9])|exact I|unfold fits, size_max; cbn; lia|].
    eapply r_cons; [apply (s_pop_back 9 [7; 5; 5; 8])|exact I|unfold fits, size_max; cbn; lia|].
    eapply r_cons; [apply (s_resize_down 3 _ [7; 5; 5] [8]); reflexivity|cbn; lia|unfold fits, size_max; cbn; lia|].
    eapply r_cons; [apply s_shrink|exact I|unfold fits, size_max; cbn; lia|].
    eapply r_cons; [apply s_reserve|exact I|unfold fits, size_max; cbn; lia|].
    apply r_nil.
  - eexists. split; [vm_compute; reflexivity|]. repeat split.
Qed.

(* Vector<int, 3> v; v.push_back(1); v.resize(3);  writes past the end of the static
   memory, although the sequence of operations is a valid one. *)
Theorem vector_resize_refuted : exists (N : nat) (os : list (vop nat)) (ys : list nat),
  vrun (fun _ _ => True) (fits 64 4) os [] ys /\ do_ops 64 4 (vempty N) os = UB.
Proof.
  exists 3, [EmplaceBack (Some 1); Resize 3 (fun _ => Some 0)], [1; 0; 0].
  split; [|reflexivity].
  eapply r_cons; [apply s_emplace_back|exact I|unfold fits, size_max; cbn; lia|].
  eapply r_cons; [apply (s_resize_up 3 _ [1] [0; 0]); [cbn; lia|reflexivity]|exact I|unfold fits, size_max; cbn; lia|].
  apply r_nil.
Qed.

(* ... and when there is room, it constructs elements beyond the size. *)
Example vector_resize_leak_ex :
  do_ops 64 4 (vempty 4) [EmplaceBack (Some 1); Resize 2 (fun _ => Some 0)]
    = Done (Vec false [Some 1; Some 0; Some 0; None] 4 2).
Proof. reflexivity. Qed.

Example vector_exception_ex :
  do_ops 64 4 (vempty 2) [EmplaceBack (Some 1); EmplaceBack (Some 2); Insert 0 None]
    = Throw (Vec true [Some 1; Some 2; None] 3 2).
Proof. reflexivity. Qed.

Example vector_no_realloc_ex :
  vec_holds 64 (Vec false [Some 1; Some 2; None] 3 2) [1; 2] /\
  vstep (AppendCopy [Some 3]) [1; 2] [1; 2; 3] /\
  do_op 64 4 (Vec false [Some 1; Some 2; None] 3 2) (AppendCopy [Some 3]) =
    Done (Vec false [Some 1; Some 2; Some 3] 3 3).
Proof.
  split; [|split; [|reflexivity]].
  - split; [reflexivity|]. split; [cbn; lia|]. split; [cbn; unfold size_max; lia|].
    intros i Hi. cbn in Hi. destruct i as [|[|[|i]]]; [reflexivity..|lia].
  - exact (s_append_copy [3] [1; 2]).
Qed.

Example vector_move_ex :
  move_from 3 (Vec false [Some 1; Some 2; None] 3 2) =
    Some (Vec false [Some 1; Some 2; None] 3 2, Vec false [None; None; None] 0 0).
Proof. reflexivity. Qed.

Print Assumptions vector_step_partial.
Print Assumptions vector_history_partial.
Print Assumptions vector_exception_safe.
Print Assumptions vector_no_realloc.
Print Assumptions vector_capacity.
Print Assumptions vector_move.
Print Assumptions vector_resize_overrun.
Print Assumptions vector_resize_refuted.
