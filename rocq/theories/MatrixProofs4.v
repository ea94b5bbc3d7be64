(* Lemmas about matrices: inverses and products. *)
From Coq Require Import Arith Bool List Lia Field.
From Verif Require Import MatrixModel MatrixSpec MatrixProofs MatrixProofs2 MatrixProofs3 ArrLib.
Import ListNotations.

Section M.
  Variable T : ops.
  Notation F := (scalar T).
  Notation fmat := (nat -> nat -> F).
  Hypothesis OF : ordered_field T.
  Add Field fld : (of_field T OF).

  Notation "0" := (zero T).
  Notation "1" := (one T).
  Infix "+" := (add T).
  Infix "*" := (mul T).
  Infix "-" := (sub T).
  Notation "- x" := (opp T x).
  Infix "/" := (div T).
  Notation rep := (rep T).

  Lemma ident_ext n a b i c : (i < n)%nat -> (c < n)%nat -> meq T n n a b -> a i c = b i c.
  Proof. intros Hi Hc H. now apply H. Qed.

  Lemma left_right n u v w : meq T n n (mmul T n v u) (ident T) -> meq T n n (mmul T n w v) (ident T) ->
    meq T n n (mmul T n u v) (ident T).
  Proof.
    intros H1 H2.
    assert (E : forall i c, (i < n)%nat -> (c < n)%nat -> u i c = w i c).
    { intros i c Hi Hc. rewrite <- (mmul_ident_l T OF n u i c Hi).
      rewrite <- (mmul_ident_r T OF n w i c Hc).
      rewrite (mmul_ext_l T n (ident T) (mmul T n w v)) by (intros; symmetry; now apply H2).
      rewrite (mmul_ext_r T n w (ident T) (mmul T n v u)) by (intros; symmetry; now apply H1).
      apply (mmul_assoc T OF). }
    intros i c Hi Hc. rewrite <- (H2 i c Hi Hc). apply mmul_ext_l. intros k Hk. now apply E.
  Qed.

  Lemma usteps_exist u f n : (u = false -> forall k, (k < n)%nat -> f k k <> 0) -> exists h, usteps T u f n h.
  Proof.
    induction n as [|n IH]; intros H; [exists f; constructor|].
    destruct IH as (h & U); [intros E k Hk; apply (H E); lia|].
    exists (ustep T u n h). constructor; [exact U|]. intros E.
    rewrite (usteps_same T u f n h U) by lia. apply (H E). lia.
  Qed.

  Lemma upper_inverse u f n h : usteps T u f n h -> inverse T n (upper T u f) (upper T u h).
  Proof.
    intros U.
    assert (H1 : meq T n n (mmul T n (upper T u h) (upper T u f)) (ident T)).
    { intros i c. apply (usteps_inv T OF u f n h U). }
    split; [|exact H1].
    destruct (usteps_exist u h n) as (w & W).
    { intros -> k Hk. destruct (usteps_diag T f n h U k Hk) as (Hz & ->).
      intros E. apply (Field_theory.F_1_neq_0 (of_field T OF)).
      replace 1 with (1 / f k k * f k k) by (now field). rewrite E. ring. }
    apply (left_right n _ _ (upper T u w)); [exact H1|].
    intros i c. apply (usteps_inv T OF u h n w W).
  Qed.

  Lemma mmul_tr n a b i c : mmul T n (tr T a) (tr T b) i c = mmul T n b a c i.
  Proof. apply sum_ext. intros k _. unfold tr. ring. Qed.
  Lemma lower_tr u f i c : lower T u f i c = tr T (upper T u (tr T f)) i c.
  Proof. unfold lower, upper, tr. bools; reflexivity. Qed.

  Lemma lower_inverse u f n h : usteps T u (tr T f) n h -> inverse T n (lower T u f) (lower T u (tr T h)).
  Proof.
    intros U. apply upper_inverse in U. destruct U as (H1 & H2).
    assert (Et : forall i c, lower T u (tr T h) i c = tr T (upper T u h) i c).
    { intros. rewrite lower_tr. reflexivity. }
    assert (Ei : forall i c, ident T c i = ident T i c) by (intros; unfold ident; bools; reflexivity).
    split; intros i c Hi Hc.
    - rewrite (mmul_ext_l T n _ (tr T (upper T u (tr T f)))) by (intros; apply lower_tr).
      rewrite (mmul_ext_r T n _ _ (tr T (upper T u h))) by (intros; apply Et).
      rewrite mmul_tr, <- Ei. now apply H2.
    - rewrite (mmul_ext_r T n _ _ (tr T (upper T u (tr T f)))) by (intros; apply lower_tr).
      rewrite (mmul_ext_l T n _ (tr T (upper T u h))) by (intros; apply Et).
      rewrite mmul_tr, <- Ei. now apply H1.
  Qed.

  (* ---- columns ---- *)

  Lemma get_col_ok M N m f j : rep M N m f -> (j < N)%nat ->
    exists col, get_col T M m j = Some col /\ length col = M /\ forall i, (i < M)%nat -> nth_error col i = Some (f i j).
  Proof.
    intros R Hj. unfold get_col.
    match goal with |- context [loop _ _ ?body _] =>
      destruct (loop_inv (fun r (col : list F) => length col = M /\ forall i, (i < r)%nat -> nth_error col i = Some (f i j))
        body 0%nat M (repeat 0 M)) as (col & E & L & G); [lia| | |] end.
    - split; [apply repeat_length|]. intros; lia.
    - intros i col Hi (L & G). rewrite (rep_get T M N m f i j R) by lia. cbn [obind].
      destruct (set_nth_ex col i (f i j)) as (col' & E); [lia|]. exists col'. split; [exact E|]. split.
      + now rewrite (set_nth_length _ _ _ _ E).
      + intros r Hr. rewrite (nth_error_set_nth _ _ _ _ r E). bools; [reflexivity|]. apply G. lia.
    - exists col. auto.
  Qed.

  Lemma set_col_ok M N m f j col g : rep M N m f -> (j < N)%nat -> (forall i, (i < M)%nat -> nth_error col i = Some (g i)) ->
    exists m', set_col T M m j col = Some m' /\ rep M N m' (fun i c => if (c =? j)%nat then g i else f i c).
  Proof.
    intros R Hj G. unfold set_col.
    match goal with |- context [loop _ _ ?body _] =>
      destruct (loop_inv (fun r mr => rep M N mr (fun i c => if (c =? j)%nat && (i <? r)%nat then g i else f i c))
        body 0%nat M m) as (m' & E & R'); [lia| | |] end.
    - apply (rep_ext T M N m _ _ R). intros i c _ _. bools; reflexivity.
    - intros i mi Hi Ri. rewrite G by lia. cbn [obind].
      destruct (rep_set T M N mi _ i j (g i) Ri) as (m' & E & R'); [lia|lia|]. exists m'. split; [exact E|].
      apply (rep_ext T M N m' _ _ R'). intros r c _ _. unfold upd. bools; reflexivity.
    - exists m'. split; [exact E|]. apply (rep_ext T M N m' _ _ R'). intros i c Hi _. bools; reflexivity.
  Qed.

  (* ---- solving X L = V ---- *)

  Lemma solve_lower_ok N m g : rep N N m g -> exists m' x, solve_lower T N m = Some m' /\ rep N N m' x /\
    meq T N N (mmul T N x (lower T true g)) (upper T false g).
  Proof.
    intros R. unfold solve_lower.
    match goal with |- context [loop_down _ ?body _] =>
      destruct (loop_down_inv (fun j mj => exists x, rep N N mj x /\ (forall i c, (c < j)%nat -> x i c = g i c) /\
        forall i c, (i < N)%nat -> (j <= c < N)%nat -> mmul T N x (lower T true g) i c = upper T false g i c)
        body (N - 1)%nat m) as (m' & E & x & R' & _ & H) end.
    - exists g. split; [exact R|]. split; [reflexivity|]. intros i c Hi Hc.
      replace c with (N - 1)%nat by lia. unfold mmul. rewrite (sum_single T OF N _ (N - 1)%nat).
      + unfold lower, upper. bools; ring.
      + lia.
      + intros k Hk Hne. unfold lower. bools; ring.
    - intros k mj Hk (x & Rx & Hsame & Hdone). rewrite Nat.add_sub.
      destruct (get_col_ok N N mj x k Rx ltac:(lia)) as (col & E & L & G). rewrite E. cbn [obind].
      set (s := fun i => sum T N (fun l => x i l * (if (k <? l)%nat then g l k else 0))).
      match goal with |- context [loop _ _ ?body _] =>
        destruct (loop_inv (fun r mr => rep N N mr (fun i c => if (c =? k)%nat && (i <? r)%nat
          then upper T false g i k - s i else x i c)) body 0%nat N mj) as (m' & E' & R'); [lia| | |] end.
      + apply (rep_ext T N N mj _ _ Rx). intros i c _ _. bools; reflexivity.
      + intros i mi Hi Ri.
        match goal with |- context [loop _ _ ?body ?z] =>
          destruct (loop_inv (fun l y => y = sum T l (fun l => x i l * (if (k <? l)%nat then g l k else 0)))
            body (Nat.add k 1) N z) as (y & Ey & ->); [lia| | |] end.
        * symmetry. apply sum_zero; [exact OF|]. intros l Hl. bools. ring.
        * intros l y Hl ->. rewrite (rep_get T N N mi _ i l Ri) by lia. cbn [obind].
          rewrite G by lia. cbn [obind]. eexists. split; [reflexivity|].
          rewrite (Nat.add_1_r l). cbn [sum]. f_equal. rewrite (Hsame l k) by lia. bools. reflexivity.
        * rewrite Ey. cbn [obind].
          destruct (Nat.leb_spec (Nat.add k 1) i).
          -- destruct (rep_set T N N mi _ i k (- s i) Ri) as (m' & S' & R'); [lia|lia|].
             exists m'. split; [exact S'|]. apply (rep_ext T N N m' _ _ R').
             intros r c Hr Hc. unfold upd, upper. bools; try reflexivity; ring.
          -- rewrite (rep_get T N N mi _ i k Ri) by lia. cbn [obind].
             match goal with |- context [mset T mi i k ?v] =>
               destruct (rep_set T N N mi _ i k v Ri) as (m' & S' & R'); [lia|lia|] end.
             exists m'. split; [exact S'|]. apply (rep_ext T N N m' _ _ R').
             intros r c Hr Hc. unfold upd, upper, s. bools; try reflexivity; rewrite Hsame by lia; reflexivity.
      + exists m'. split; [exact E'|]. eexists. split; [exact R'|]. cbv beta. split.
        * intros i c Hc. bools; apply Hsame; lia.
        * intros i c Hi Hc. destruct (Nat.eq_dec c k) as [->|Hne].
          -- unfold mmul.
             rewrite (sum_ext T N _ (fun l => (if (l =? k)%nat then upper T false g i k - s i else 0) +
                                              x i l * (if (k <? l)%nat then g l k else 0))).
             ++ rewrite sum_add by exact OF. fold (s i). rewrite (sum_single T OF N _ k) by (try lia; intros; bools; reflexivity).
                rewrite Nat.eqb_refl. ring.
             ++ intros l Hl. unfold lower. bools; ring.
          -- rewrite <- (Hdone i c Hi) by lia. apply sum_ext. intros l Hl. unfold lower. bools; ring.
    - exists m', x. split; [exact E|]. split; [exact R'|]. intros i c Hi Hc. apply H; lia.
  Qed.

  (* ---- exchanging columns ---- *)

  Lemma perms_snoc ps p : forall k i, perms k (ps ++ [p]) i = perm (k + length ps) p (perms k ps i).
  Proof.
    induction ps as [|q ps IH]; intros k i; cbn [app perms length].
    - now rewrite Nat.add_0_r.
    - rewrite IH. now replace (S k + length ps)%nat with (k + S (length ps))%nat by lia.
  Qed.

  Lemma skipn_nth {A} (l : list A) k p : nth_error l k = Some p -> skipn k l = p :: skipn (k + 1) l.
  Proof.
    revert l. induction k as [|k IH]; intros [|q l] H; try discriminate H; cbn in H.
    - inversion H. reflexivity.
    - cbn [skipn Nat.add]. now apply IH.
  Qed.

  Lemma undo_pivots_ok N m x ps : rep N N m x -> length ps = N -> Forall (fun p => (p < N)%nat) ps ->
    (forall k, (k < N)%nat -> (k <= nth k ps 0)%nat) ->
    exists m', undo_pivots T N m ps = Some m' /\ rep N N m' (fun i c => x i (perms 0 ps c)).
  Proof.
    intros R L Hp Hk. unfold undo_pivots. set (qs := firstn (N - 1) ps).
    match goal with |- context [loop_down _ ?body _] =>
      destruct (loop_down_inv (fun j mj => rep N N mj (fun i c => x i (perms j (skipn j qs) c))) body (N - 1)%nat m)
        as (m' & E & R') end.
    - apply (rep_ext T N N m _ _ R). intros i c _ _. rewrite skipn_all2; [reflexivity|].
      unfold qs. rewrite firstn_length. lia.
    - intros k mj Hkn Rj. rewrite Nat.add_sub.
      destruct (nth_error ps k) as [p|] eqn:Ep; [|apply nth_error_None in Ep; lia]. cbn [obind].
      assert (Hpn : (p < N)%nat) by (rewrite Forall_forall in Hp; apply Hp; eapply nth_error_In, Ep).
      assert (Eq : skipn k qs = p :: skipn (k + 1) qs).
      { apply skipn_nth. unfold qs. rewrite <- Ep. rewrite <- (firstn_skipn (N - 1) ps) at 2. symmetry. apply nth_error_app1.
        rewrite firstn_length. lia. }
      rewrite Eq. cbn [perms]. rewrite Nat.add_1_r in *.
      destruct (Nat.eqb_spec p k) as [->|Hne]; cbn [negb].
      + exists mj. split; [reflexivity|]. apply (rep_ext T N N mj _ _ Rj). intros i c _ _.
        f_equal. f_equal. unfold perm. bools; reflexivity.
      + destruct (get_col_ok N N mj _ k Rj ltac:(lia)) as (col & E1 & L1 & G1). rewrite E1. cbn [obind].
        destruct (get_col_ok N N mj _ p Rj ltac:(lia)) as (colp & E2 & L2 & G2). rewrite E2. cbn [obind].
        destruct (set_col_ok N N mj _ k colp _ Rj ltac:(lia) G2) as (m1 & E3 & R1). rewrite E3. cbn [obind].
        destruct (set_col_ok N N m1 _ p col _ R1 ltac:(lia) G1) as (m2 & E4 & R2).
        exists m2. split; [exact E4|]. apply (rep_ext T N N m2 _ _ R2). intros i c _ _.
        unfold perm. bools; reflexivity.
    - exists m'. split; [exact E|]. apply (rep_ext T N N m' _ _ R'). intros i c Hi Hc. cbn [skipn].
      f_equal. destruct N as [|n]; [lia|].
      assert (Ep : ps = qs ++ [n]).
      { unfold qs. replace (S n - 1)%nat with n by lia. rewrite <- (firstn_skipn n ps) at 1. f_equal.
        destruct (nth_error ps n) as [p|] eqn:Ep; [|apply nth_error_None in Ep; lia].
        rewrite (skipn_nth ps n p Ep). rewrite skipn_all2 by lia. f_equal.
        assert (p < S n)%nat by (rewrite Forall_forall in Hp; apply Hp; eapply nth_error_In, Ep).
        specialize (Hk n ltac:(lia)). rewrite (nth_error_nth _ _ 0%nat Ep) in Hk. lia. }
      transitivity (perms 0 (qs ++ [n]) c); [|now rewrite <- Ep].
      rewrite perms_snoc. replace (0 + length qs)%nat with n by (unfold qs; rewrite firstn_length; lia).
      unfold perm. destruct (Nat.eqb_spec (perms 0 qs c) n); congruence.
  Qed.

  Lemma sum_perm n k p f : (k < n)%nat -> (p < n)%nat -> sum T n (fun i => f (perm k p i)) = sum T n f.
  Proof.
    intros Hk Hp.
    rewrite (sum_ext T n _ (fun r => sum T n (fun s => (if (perm k p r =? s)%nat then 1 else 0) * f s))).
    - rewrite sum_swap by exact OF. apply sum_ext. intros s Hs.
      rewrite (sum_single T OF n _ (perm k p s)).
      + rewrite perm_perm, Nat.eqb_refl. ring.
      + now apply perm_lt.
      + intros r _ Hr. destruct (Nat.eqb_spec (perm k p r) s) as [E|_]; [|ring].
        exfalso. apply Hr. rewrite <- E. now rewrite perm_perm.
    - intros r Hr. rewrite (sum_single T OF n _ (perm k p r)).
      + rewrite Nat.eqb_refl. ring.
      + now apply perm_lt.
      + intros s _ Hs. rewrite (proj2 (Nat.eqb_neq (perm k p r) s)) by congruence. ring.
  Qed.
  Lemma sum_perms n f ps : Forall (fun p => (p < n)%nat) ps -> forall k, (k + length ps <= n)%nat ->
    sum T n (fun i => f (perms k ps i)) = sum T n f.
  Proof.
    induction 1 as [|p ps Hp _ IH]; intros k Hk; [reflexivity|]. cbn [perms length] in *.
    rewrite (sum_perm n k p (fun i => f (perms (S k) ps i))) by lia. apply IH. lia.
  Qed.

  (* rows of the matrix in terms of the factors *)
  Lemma steps_rows N a ps f : steps T N a N ps f -> forall r c, (r < N)%nat -> (c < N)%nat ->
    a r c = mmul T N (lower T true f) (upper T false f) (perms 0 ps r) c.
  Proof.
    intros S r c Hr Hc. pose proof (steps_length T _ _ _ _ _ S) as L. destruct (steps_bounds T _ _ _ _ _ S) as (B & _).
    rewrite <- (perms_inv_perms ps 0 r) at 1.
    rewrite (steps_lu T OF N N a N ps f S) by (try lia; apply perms_lt; try assumption; lia).
    unfold lpart, upart. bools; ring.
  Qed.

  Lemma try_inv_ok N m f : rep N N m f ->
    (exists m' y, try_inv T N m = Some (true, m') /\ rep N N m' y /\ inverse T N f y) \/
    (exists m', try_inv T N m = Some (false, m') /\ is_matrix T N N m' /\ singular T N f).
  Proof.
    intros R. unfold try_inv.
    destruct (decompose_ok T OF N N m f R) as (m1 & ps & g & E1 & R1 & S). rewrite E1. cbn [obind].
    rewrite Nat.min_id in S. pose proof (steps_length T _ _ _ _ _ S) as L.
    destruct (steps_bounds T _ _ _ _ _ S) as (B1 & B2).
    pose proof (steps_rows N f ps g S) as Hf.
    destruct (try_upper_ok T OF false N m1 g R1) as [(m2 & h & E2 & R2 & U)|(_ & m2 & h & j & E2 & I2 & Hj & U & Z)];
      rewrite E2; cbn [obind].
    - left. destruct (solve_lower_ok N m2 h R2) as (m3 & x & E3 & R3 & X). rewrite E3. cbn [obind].
      destruct (undo_pivots_ok N m3 x ps R3 L B1 B2) as (m4 & E4 & R4). rewrite E4. cbn [obind].
      exists m4. eexists. split; [reflexivity|]. split; [exact R4|].
      set (tau := perms 0 ps) in *.
      assert (Htau : forall r, (r < N)%nat -> (tau r < N)%nat) by (intros; apply perms_lt; try assumption; lia).
      destruct (upper_inverse false g N h U) as (UV & VU).
      (* the lower part of h is that of g *)
      assert (X' : meq T N N (mmul T N x (lower T true g)) (upper T false h)).
      { intros i c Hi Hc. rewrite <- (X i c Hi Hc). apply mmul_ext_r. intros k Hk.
        unfold lower. bools; try reflexivity. symmetry. apply (usteps_same T _ _ _ _ U). lia. }
      destruct (usteps_exist true (tr T g) N) as (l & Ul); [discriminate|].
      destruct (lower_inverse true g N l Ul) as (LL & _). set (l' := lower T true (tr T l)) in *.
      set (Lg := lower T true g) in *. set (Ug := upper T false g) in *. set (V := upper T false h) in *.
      (* L U X = I and X L U = I *)
      assert (XLU : meq T N N (mmul T N x (mmul T N Lg Ug)) (ident T)).
      { intros i c Hi Hc. rewrite <- (mmul_assoc T OF).
        rewrite (mmul_ext_l T N _ V) by (intros; now apply X'). now apply VU. }
      assert (XV : forall i c, (i < N)%nat -> (c < N)%nat -> x i c = mmul T N V l' i c).
      { intros i c Hi Hc. rewrite <- (mmul_ident_r T OF N x i c Hc).
        rewrite (mmul_ext_r T N x _ (mmul T N Lg l')) by (intros; symmetry; now apply LL).
        rewrite <- (mmul_assoc T OF). apply mmul_ext_l. intros. now apply X'. }
      assert (LUX : meq T N N (mmul T N (mmul T N Lg Ug) x) (ident T)).
      { intros i c Hi Hc. rewrite (mmul_assoc T OF).
        rewrite (mmul_ext_r T N Lg _ l'); [now apply LL|]. intros k Hk.
        rewrite (mmul_ext_r T N Ug x (mmul T N V l')) by (intros; now apply XV).
        rewrite <- (mmul_assoc T OF). rewrite (mmul_ext_l T N _ (ident T)) by (intros; now apply UV).
        now apply mmul_ident_l. }
      split; intros i c Hi Hc.
      + transitivity (mmul T N (mmul T N Lg Ug) x (tau i) (tau c)).
        * apply sum_ext. intros k Hk. now rewrite Hf.
        * rewrite LUX by auto. unfold ident.
          destruct (Nat.eqb_spec (tau i) (tau c)) as [E|E], (Nat.eqb_spec i c) as [E'|E']; try reflexivity.
          -- exfalso. apply E'. unfold tau in E. apply (f_equal (perms_inv 0 ps)) in E.
             now rewrite !perms_inv_perms in E.
          -- exfalso. apply E. now f_equal.
      + transitivity (mmul T N x (mmul T N Lg Ug) i c); [|now apply XLU].
        unfold mmul at 1 2.
        rewrite <- (sum_perms N (fun s => x i s * mmul T N Lg Ug s c) ps B1 0) by lia.
        apply sum_ext. intros k Hk. now rewrite (Hf k c Hk Hc).
    - right. exists m2. split; [reflexivity|]. split; [exact I2|].
      assert (Zf : g j j = 0) by (rewrite <- (usteps_same T _ _ _ _ U) by lia; exact Z).
      destruct (upper_inverse false g j h U) as (UV & _).
      set (Ug := upper T false g) in *. set (V := upper T false h) in *.
      set (x := fun k => if (k <? j)%nat then - sum T j (fun l => V k l * Ug l j) else if (k =? j)%nat then 1 else 0).
      assert (Ux : forall i, (i < N)%nat -> sum T N (fun k => Ug i k * x k) = 0).
      { intros i Hi.
        rewrite (sum_shorter T OF (j + 1) N) by (try lia; intros k Hk; unfold x; bools; ring).
        rewrite Nat.add_1_r. cbn [sum]. unfold x at 2. bools.
        destruct (Nat.lt_ge_cases i j) as [Hij|Hij].
        - transitivity (- mmul T j (mmul T j Ug V) Ug i j + Ug i j).
          + rewrite (mmul_assoc T OF). unfold mmul at 1.
            transitivity (- (1) * sum T j (fun k => Ug i k * mmul T j V Ug k j) + Ug i j); [|ring].
            rewrite <- sum_scale by exact OF. replace (Ug i j * 1) with (Ug i j) by ring. f_equal.
            apply sum_ext. intros k Hk. unfold x, mmul. bools. ring.
          + rewrite (mmul_ext_l T j _ (ident T)) by (intros; now apply UV).
            rewrite (mmul_ident_l T OF) by exact Hij. ring.
        - rewrite sum_zero; [|exact OF|].
          + unfold Ug, upper. bools; try (rewrite Zf); ring.
          + intros k Hk. unfold Ug, upper. bools; ring. }
      exists x. split.
      + exists j. split; [exact Hj|]. unfold x. bools. apply (Field_theory.F_1_neq_0 (of_field T OF)).
      + intros i Hi.
        rewrite (sum_ext T N _ (fun k => mmul T N (lower T true g) Ug (perms 0 ps i) k * x k))
          by (intros; now rewrite Hf).
        unfold mmul.
        rewrite (sum_ext T N _ (fun k => sum T N (fun l => lower T true g (perms 0 ps i) l * (Ug l k * x k)))).
        * rewrite sum_swap by exact OF. apply sum_zero; [exact OF|]. intros l Hl.
          rewrite sum_scale by exact OF. rewrite Ux by exact Hl. ring.
        * intros k Hk. rewrite <- sum_scale_r by exact OF. apply sum_ext. intros. ring.
  Qed.

  (* ---- products ---- *)

  Lemma inner_ok N a b f g : (forall i, (i < N)%nat -> nth_error a i = Some (f i)) ->
    (forall i, (i < N)%nat -> nth_error b i = Some (g i)) ->
    inner T N a b = Some (sum T N (fun k => f k * g k)).
  Proof.
    intros Ha Hb. unfold inner.
    match goal with |- loop _ _ ?body ?z = _ =>
      destruct (loop_inv (fun k y => y = sum T k (fun k => f k * g k)) body 0%nat N z) as (y & E & ->);
      [lia|reflexivity| |exact E] end.
    intros k y Hk ->. rewrite Ha, Hb by lia. cbn [obind]. eexists. split; [reflexivity|].
    now rewrite Nat.add_1_r.
  Qed.

  Lemma inner_vm_ok M N a m f g : rep M N m f -> (forall i, (i < M)%nat -> nth_error a i = Some (g i)) ->
    exists v, inner_vm T M N a m = Some v /\ length v = N /\
      forall j, (j < N)%nat -> nth_error v j = Some (sum T M (fun k => g k * f k j)).
  Proof.
    intros R Ha. unfold inner_vm.
    match goal with |- context [loop _ _ ?body ?z] =>
      destruct (loop_inv (fun r (v : list F) => length v = N /\
        forall j, (j < r)%nat -> nth_error v j = Some (sum T M (fun k => g k * f k j))) body 0%nat N z)
        as (v & E & L & G); [lia| | |] end.
    - split; [apply repeat_length|]. intros; lia.
    - intros j v Hj (L & G). destruct (get_col_ok M N m f j R ltac:(lia)) as (col & E1 & _ & G1).
      rewrite E1. cbn [obind]. rewrite (inner_ok M a col g (fun k => f k j) Ha G1). cbn [obind].
      match goal with |- context [set_nth v j ?x] => destruct (set_nth_ex v j x) as (v' & E); [lia|] end.
      exists v'. split; [exact E|]. split; [now rewrite (set_nth_length _ _ _ _ E)|].
      intros c Hc. rewrite (nth_error_set_nth _ _ _ _ c E). bools; [reflexivity|]. apply G. lia.
    - exists v. auto.
  Qed.

  Lemma rep_repeat M N : rep M N (repeat (repeat 0 N) M) (fun _ _ => 0).
  Proof.
    split; [split|].
    - apply repeat_length.
    - apply Forall_forall. intros r Hr. apply repeat_spec in Hr. subst r. apply repeat_length.
    - intros i j Hi Hj. unfold mget.
      rewrite (nth_error_nth' _ (repeat 0 N)) by now rewrite repeat_length.
      rewrite nth_repeat. cbn [obind].
      rewrite (nth_error_nth' _ 0) by now rewrite repeat_length. now rewrite nth_repeat.
  Qed.

  Lemma inner_mm_ok M N P a b f g : rep M N a f -> rep N P b g ->
    exists c, inner_mm T M N P a b = Some c /\ rep M P c (mmul T N f g).
  Proof.
    intros Ra Rb. unfold inner_mm.
    match goal with |- context [loop _ _ ?body ?z] =>
      destruct (loop_inv (fun r mr => rep M P mr (fun i j => if (i <? r)%nat then mmul T N f g i j else 0)) body 0%nat M z)
        as (c & E & R'); [lia| | |] end.
    - apply (rep_ext T M P _ _ _ (rep_repeat M P)). intros i j _ _. bools. reflexivity.
    - intros i mi Hi Ri. destruct (rep_row T M N a f i Ra ltac:(lia)) as (row & E1 & _ & G1). rewrite E1. cbn [obind].
      destruct (inner_vm_ok N P row b g (fun k => f i k) Rb G1) as (v & E2 & L2 & G2). rewrite E2. cbn [obind].
      destruct (rep_set_row T M P mi _ i v _ Ri ltac:(lia) L2 G2) as (m' & E3 & R3).
      exists m'. split; [exact E3|]. apply (rep_ext T M P m' _ _ R3). intros r j Hr Hj.
      unfold mmul. bools; reflexivity.
    - exists c. split; [exact E|]. apply (rep_ext T M P c _ _ R'). intros i j Hi Hj. bools. reflexivity.
  Qed.
End M.
