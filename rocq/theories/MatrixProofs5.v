(* Lemmas about matrices: determinants. *)
From Coq Require Import Arith Bool List Lia Field.
From Verif Require Import MatrixModel MatrixSpec MatrixProofs MatrixProofs2 MatrixProofs3 MatrixProofs4 ArrLib.
Import ListNotations.

Ltac lbools := repeat match goal with
  | |- context [Nat.ltb ?a ?b] => destruct (Nat.ltb_spec a b); try lia
  end; bools.

Section M.
  Variable T : ops.
  Notation F := (scalar T).
  Notation fmat := (nat -> nat -> F).
  Hypothesis OF : ordered_field T.
  Add Field fld : (of_field T OF).

  Notation "0" := (zero T).
  Notation "1" := (one T).
  Infix "+" := (add T).
  Infix "*" := (mul T).
  Infix "-" := (sub T).
  Notation "- x" := (opp T x).
  Infix "/" := (div T).
  Notation rep := (rep T).
  Notation D := (determinant T).

  Lemma D_S n a : D (S n) a = sum T (S n) (fun i =>
    if Nat.even i then a i 0%nat * D n (minor T i a) else - (a i 0%nat * D n (minor T i a))).
  Proof. reflexivity. Qed.

  Lemma D_ext n : forall a b, meq T n n a b -> D n a = D n b.
  Proof.
    induction n as [|n IH]; intros a b H; [reflexivity|]. rewrite !D_S. apply sum_ext. intros i Hi.
    rewrite (H i 0%nat) by lia. rewrite (IH (minor T i a) (minor T i b)); [reflexivity|].
    intros r c Hr Hc. unfold minor. apply H; lbools; lia.
  Qed.

  Definition setrow (a : fmat) (r : nat) (v : nat -> F) : fmat := fun i j => if (i =? r)%nat then v j else a i j.

  Lemma sum_combine n (f g h : nat -> F) x y : (forall i, (i < n)%nat -> f i = x * g i + y * h i) ->
    sum T n f = x * sum T n g + y * sum T n h.
  Proof.
    intros H. rewrite <- !sum_scale, <- sum_add by exact OF. now apply sum_ext.
  Qed.

  Lemma minor_setrow_same n r a v : meq T n n (minor T r (setrow a r v)) (minor T r a).
  Proof. intros i j _ _. unfold minor, setrow. lbools; reflexivity. Qed.
  Lemma minor_setrow n i r a v : i <> r ->
    meq T n n (minor T i (setrow a r v)) (setrow (minor T i a) (if (r <? i)%nat then r else r - 1) (fun j => v (S j))).
  Proof. intros H k j _ _. unfold minor, setrow. lbools; reflexivity. Qed.

  Lemma D_linear n : forall a r x y u v, (r < n)%nat ->
    D n (setrow a r (fun j => x * u j + y * v j)) = x * D n (setrow a r u) + y * D n (setrow a r v).
  Proof.
    induction n as [|n IH]; intros a r x y u v Hr; [lia|]. rewrite !D_S. apply sum_combine. intros i Hi.
    destruct (Nat.eq_dec i r) as [->|Hne].
    - rewrite !(D_ext n _ _ (minor_setrow_same n r a _)). unfold setrow. rewrite !Nat.eqb_refl.
      destruct (Nat.even r); ring.
    - rewrite !(D_ext n _ _ (minor_setrow n i r a _ Hne)).
      rewrite (IH (minor T i a) (if (r <? i)%nat then r else r - 1)%nat x y (fun j => u (S j)) (fun j => v (S j)))
        by (lbools).
      assert (E : forall w, setrow a r w i 0%nat = a i 0%nat) by (intros w; unfold setrow; now rewrite (proj2 (Nat.eqb_neq i r) Hne)).
      rewrite !E.
      destruct (Nat.even i); ring.
  Qed.

  Lemma sum_two n f i j : (i < n)%nat -> (j < n)%nat -> i <> j ->
    (forall k, (k < n)%nat -> k <> i -> k <> j -> f k = 0) -> sum T n f = f i + f j.
  Proof.
    intros Hi Hj Hij H.
    rewrite (sum_ext T n f (fun k => (if (k =? i)%nat then f i else 0) + (if (k =? j)%nat then f j else 0))).
    - rewrite sum_add by exact OF. rewrite (sum_single T OF n _ i), (sum_single T OF n _ j); try assumption.
      + lbools. reflexivity.
      + intros. lbools. reflexivity.
      + intros. lbools. reflexivity.
    - intros k Hk. destruct (Nat.eqb_spec k i), (Nat.eqb_spec k j); subst; try lia; try ring.
      rewrite H by assumption. ring.
  Qed.

  Lemma D_adjacent n : forall a r, (S r < n)%nat -> (forall j, (j < n)%nat -> a r j = a (S r) j) -> D n a = 0.
  Proof.
    induction n as [|n IH]; intros a r Hr H; [lia|]. rewrite D_S.
    rewrite (sum_two (S n) _ r (S r)); try lia.
    - rewrite <- (H 0%nat) by lia.
      rewrite (D_ext n (minor T (S r) a) (minor T r a)).
      + rewrite Nat.even_succ, <- Nat.negb_even. destruct (Nat.even r); cbn [negb]; ring.
      + intros i j Hi Hj. unfold minor. lbools; try reflexivity.
        replace i with r by lia. apply H. lia.
    - intros i Hi Hi1 Hi2. rewrite (IH (minor T i a) (if (r <? i)%nat then r else r - 1)%nat).
      + destruct (Nat.even i); ring.
      + lbools.
      + intros j Hj. unfold minor. lbools; try (apply H; lia).
        replace (S (r - 1)) with r by lia. rewrite (H (S j)) by lia. f_equal.
  Qed.

  (* exchange of two rows when the determinant is zero if they are equal *)
  Lemma D_exchange n r s a u v : (r < n)%nat -> (s < n)%nat -> r <> s ->
    (forall b, (forall j, (j < n)%nat -> b r j = b s j) -> D n b = 0) ->
    D n (setrow (setrow a r v) s u) = - D n (setrow (setrow a r u) s v).
  Proof.
    intros Hr Hs Hrs Z.
    set (w := fun j => 1 * u j + 1 * v j).
    assert (E : D n (setrow (setrow a r w) s w) = 0).
    { apply Z. intros j _. unfold setrow. lbools. reflexivity. }
    assert (Ez : forall x, D n (setrow (setrow a r x) s x) = 0).
    { intros x. apply Z. intros j _. unfold setrow. lbools. reflexivity. }
    assert (Ec : forall x y, D n (setrow (setrow a r x) s y) = D n (setrow (setrow a s y) r x)).
    { intros x y. apply D_ext. intros i j _ _. unfold setrow. lbools; reflexivity. }
    unfold w at 2 in E. rewrite D_linear in E by assumption.
    rewrite (Ec w u), (Ec w v) in E. unfold w in E. rewrite !D_linear in E by assumption.
    rewrite <- !Ec in E. rewrite !Ez in E.
    match type of E with ?l = 0 => replace (D n (setrow (setrow a r v) s u)) with
      (l - D n (setrow (setrow a r u) s v)) by ring end.
    rewrite E. ring.
  Qed.

  Lemma setrow_self n a r s : meq T n n a (setrow (setrow a r (a r)) s (a s)).
  Proof. intros i j _ _. unfold setrow. lbools; reflexivity. Qed.

  Lemma D_equal n : forall d a r s, (r < s < n)%nat -> (s - r = S d)%nat ->
    (forall j, (j < n)%nat -> a r j = a s j) -> D n a = 0.
  Proof.
    induction d as [|d IH]; intros a r s Hrs Hd H.
    - replace s with (S r) in * by lia. now apply (D_adjacent n a r).
    - rewrite (D_ext n _ _ (setrow_self n a (s - 1) s)).
      rewrite (D_exchange n (s - 1) s); try lia.
      + rewrite (IH _ r (s - 1)%nat); [ring|lia|lia|].
        intros j Hj. unfold setrow. lbools. now apply H.
      + intros b Hb. apply (D_adjacent n b (s - 1)); [lia|]. replace (S (s - 1)) with s by lia. exact Hb.
  Qed.
  Lemma D_equal_rows n a r s : (r < n)%nat -> (s < n)%nat -> r <> s -> (forall j, (j < n)%nat -> a r j = a s j) -> D n a = 0.
  Proof.
    intros Hr Hs Hrs H. destruct (Nat.lt_ge_cases r s).
    - apply (D_equal n (s - r - 1) a r s); [lia|lia|exact H].
    - apply (D_equal n (r - s - 1) a s r); [lia|lia|]. intros j Hj. symmetry. now apply H.
  Qed.

  Lemma D_swap n k p a : (k < n)%nat -> (p < n)%nat -> k <> p -> D n (fun i c => a (perm k p i) c) = - D n a.
  Proof.
    intros Hk Hp Hkp.
    rewrite (D_ext n _ (setrow (setrow a k (a p)) p (a k))).
    - rewrite (D_exchange n k p); try assumption.
      + now rewrite <- (D_ext n _ _ (setrow_self n a k p)).
      + intros b Hb. now apply (D_equal_rows n b k p).
    - intros i c _ _. unfold setrow, perm. lbools; reflexivity.
  Qed.

  Lemma D_add_row n a r s c : (r < n)%nat -> (s < n)%nat -> r <> s ->
    D n (setrow a r (fun j => a r j - c * a s j)) = D n a.
  Proof.
    intros Hr Hs Hrs.
    rewrite (D_ext n _ (setrow a r (fun j => 1 * a r j + (- c) * a s j))).
    - rewrite D_linear by exact Hr. rewrite (D_equal_rows n (setrow a r (a s)) r s); try assumption.
      + rewrite (D_ext n (setrow a r (a r)) a); [ring|].
        intros i j _ _. unfold setrow. lbools; reflexivity.
      + intros j _. unfold setrow. lbools. reflexivity.
    - intros i j _ _. unfold setrow. lbools; [ring|reflexivity].
  Qed.

  Lemma D_eliminate n j b l : (j < n)%nat -> forall k, (k <= n)%nat ->
    D n (fun i c => if (j <? i)%nat && (i <? k)%nat then b i c - l i * b j c else b i c) = D n b.
  Proof.
    intros Hj. induction k as [|k IH]; intros Hk.
    - apply D_ext. intros i c _ _. lbools; reflexivity.
    - rewrite <- IH by lia. destruct (Nat.lt_ge_cases j k) as [Hjk|Hjk].
      + set (b' := fun i c => if (j <? i)%nat && (i <? k)%nat then b i c - l i * b j c else b i c).
        rewrite <- (D_add_row n b' k j (l k)) by lia. apply D_ext.
        intros i c _ _. unfold setrow, b'. lbools; reflexivity.
      + apply D_ext. intros i c _ _. lbools; reflexivity.
  Qed.

  Lemma prod_ext n f g : (forall k, (k < n)%nat -> f k = g k) -> prod T n f = prod T n g.
  Proof.
    induction n as [|n IH]; intros H; [reflexivity|]. cbn [prod]. rewrite IH by (intros; apply H; lia).
    now rewrite (H n) by lia.
  Qed.
  Lemma prod_S n f : prod T (S n) f = f 0%nat * prod T n (fun i => f (S i)).
  Proof.
    induction n as [|n IH]; [cbn; ring|].
    change (prod T (S (S n)) f) with (prod T (S n) f * f (S n)). rewrite IH. cbn [prod]. ring.
  Qed.

  Lemma D_upper n : forall a, (forall i j, (i < n)%nat -> (j < i)%nat -> a i j = 0) -> D n a = prod T n (fun i => a i i).
  Proof.
    induction n as [|n IH]; intros a H; [reflexivity|]. rewrite D_S, prod_S.
    rewrite (sum_single T OF (S n) _ 0%nat).
    - cbn [Nat.even]. rewrite IH; [reflexivity|]. intros i j Hi Hj. unfold minor. apply H; lbools.
    - lia.
    - intros i Hi Hne. rewrite H by lia. destruct (Nat.even i); ring.
  Qed.

  (* ---- determinant and decomposition ---- *)

  Definition reduced (j : nat) (f : fmat) : fmat := fun i c => if (c <? j)%nat && (c <? i)%nat then 0 else f i c.

  Fixpoint nswaps (k : nat) (ps : list nat) : nat :=
    match ps with [] => 0 | p :: ps => Nat.add (if (p =? k)%nat then 0 else 1) (nswaps (S k) ps) end.
  Lemma nswaps_snoc ps p : forall k, nswaps k (ps ++ [p]) = Nat.add (nswaps k ps) (if (p =? k + length ps)%nat then 0 else 1).
  Proof.
    induction ps as [|q ps IH]; intros k; cbn [app nswaps length].
    - rewrite !Nat.add_0_r. reflexivity.
    - rewrite IH. replace (S k + length ps)%nat with (k + S (length ps))%nat by lia. lia.
  Qed.

  Definition signed (n : nat) (x : F) : F := if Nat.even n then x else - x.

  Lemma steps_det N a j ps f : steps T N a j ps f -> (j <= N)%nat ->
    D N a = signed (nswaps 0 ps) (D N (reduced j f)).
  Proof.
    induction 1 as [|j ps p f S IH Hp]; intros Hj.
    - cbn. apply D_ext. intros i c _ _. unfold reduced. lbools; reflexivity.
    - rewrite IH by lia. rewrite nswaps_snoc, (steps_length T _ _ _ _ _ S). cbn [Nat.add].
      pose proof (step_pivoted T OF N j p f Hp) as E3. destruct Hp as (Hp1 & Hp2 & Hp3).
      set (f3 := step T j p f) in *. set (g := pivoted T j p f) in *.
      assert (Hpj : f p j = g j j) by (unfold g, pivoted, perm; lbools; reflexivity).
      assert (Z : forall i, (j <= i < N)%nat -> g j j = 0 -> g i j = 0).
      { intros i Hi Z. rewrite <- Hpj in Z. specialize (Hp2 (perm j p i)).
        apply (abs_zero T OF). rewrite Z, (abs_of_zero T OF) in Hp2.
        symmetry. apply (of_total T OF); [|apply (abs_nonneg T OF)].
        apply Hp2. split; [unfold perm; lbools|apply perm_lt; lia]. }
      assert (E1 : D N (reduced (Datatypes.S j) f3) = D N (reduced j g)).
      { rewrite <- (D_eliminate N j (reduced j g) (fun i => if eqb T (g j j) 0 then 0 else g i j * (1 / g j j)) ltac:(lia) N ltac:(lia)).
        apply D_ext. intros i c Hi Hc. unfold reduced. rewrite !E3. rewrite Hpj.
        destruct (eqb_spec' T OF (g j j) 0) as [Hz|Hz].
        - unfold updated. lbools; try reflexivity; try (replace c with j in * by lia); try (rewrite !(Z i) by (assumption || lia)); try ring.
        - unfold updated, scaled. lbools; try reflexivity; try (replace c with j in * by lia); try ring; try (field; exact Hz). }
      rewrite E1.
      assert (E2 : D N (reduced j g) = D N (fun i c => reduced j f (perm j p i) c)).
      { apply D_ext. intros i c Hi Hc. unfold reduced, g, pivoted.
        assert (Hm : (j <= i -> j <= perm j p i)%nat) by (unfold perm; lbools).
        assert (Hm2 : (i < j -> perm j p i = i)%nat) by (unfold perm; lbools).
        destruct (Nat.ltb_spec c j); cbn [andb]; [|reflexivity].
        destruct (Nat.lt_ge_cases i j) as [Hij|Hij]; [now rewrite Hm2|].
        rewrite !(proj2 (Nat.ltb_lt _ _)) by lia. reflexivity. }
      rewrite E2. unfold signed. rewrite Nat.even_add.
      destruct (Nat.eqb_spec p j) as [->|Hne].
      + rewrite (D_ext N (fun i c => reduced j f (perm j j i) c) (reduced j f)).
        * cbn [Nat.even]. destruct (Nat.even (nswaps 0 ps)); reflexivity.
        * intros i c _ _. unfold perm. lbools; reflexivity.
      + rewrite D_swap by lia. change (Nat.even 1) with false. destruct (Nat.even (nswaps 0 ps)); cbn [Bool.eqb]; ring.
  Qed.

  Lemma mod2_even n : (n mod 2 =? 0)%nat = Nat.even n.
  Proof.
    destruct (Nat.Even_or_Odd n) as [(k & ->)|(k & ->)].
    - rewrite Nat.even_mul. cbn [Nat.even orb]. rewrite Nat.mul_comm, Nat.mod_mul by lia. reflexivity.
    - rewrite Nat.even_add, Nat.even_mul. cbn [Nat.even orb Bool.eqb]. rewrite Nat.add_comm, Nat.mul_comm, Nat.mod_add by lia. reflexivity.
  Qed.

  Lemma det_ok N m f : rep N N m f -> det T N m = Some (D N f).
  Proof.
    intros R. unfold det.
    destruct (decompose_ok T OF N N m f R) as (m1 & ps & g & E1 & R1 & S). rewrite E1. cbn [obind].
    rewrite Nat.min_id in S. pose proof (steps_length T _ _ _ _ _ S) as L.
    match goal with |- context [loop 0%nat N ?body 0%nat] =>
      destruct (loop_inv (fun i n => n = nswaps 0 (firstn i ps)) body 0%nat N 0%nat) as (n & E2 & ->); [lia|reflexivity| |] end.
    { intros i n Hi ->. destruct (nth_error ps i) as [p|] eqn:Ep; [|apply nth_error_None in Ep; lia]. cbn [obind].
      assert (Ef : firstn (i + 1) ps = firstn i ps ++ [p]).
      { clear - Ep. revert ps Ep. induction i as [|i IH]; intros [|q ps] Ep; try discriminate Ep; cbn in Ep.
        - now inversion Ep.
        - cbn [firstn Nat.add app]. now rewrite <- IH. }
      rewrite Ef, nswaps_snoc, firstn_length. replace (0 + Nat.min i (length ps))%nat with i by lia.
      destruct (Nat.eqb_spec p i); cbn [negb]; eexists; (split; [reflexivity|lia]). }
    rewrite E2. cbn [obind].
    match goal with |- context [loop 0%nat N ?body 1] =>
      destruct (loop_inv (fun i c => c = prod T i (fun k => g k k)) body 0%nat N 1) as (c & E3 & ->); [lia|reflexivity| |] end.
    { intros i c Hi ->. rewrite (rep_get T N N m1 g i i R1) by lia. cbn [obind]. eexists. split; [reflexivity|].
      now rewrite Nat.add_1_r. }
    rewrite E3. cbn [obind]. f_equal.
    rewrite (steps_det N f N ps g S) by lia. rewrite firstn_all2 by lia.
    rewrite mod2_even. unfold signed. rewrite D_upper.
    - rewrite (prod_ext N (fun k => reduced N g k k) (fun k => g k k)); [reflexivity|]. intros k Hk. unfold reduced. lbools. reflexivity.
    - intros i j Hi Hj. unfold reduced. lbools. reflexivity.
  Qed.
End M.
