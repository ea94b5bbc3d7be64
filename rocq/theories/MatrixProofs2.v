(* Lemmas about matrices: decompose(). *)
From Coq Require Import Arith Bool List Lia Field.
From Verif Require Import MatrixModel MatrixSpec MatrixProofs ArrLib.
Import ListNotations.

Ltac bools := repeat match goal with
  | |- context [Nat.eqb ?a ?b] => destruct (Nat.eqb_spec a b); try subst; try lia
  | |- context [Nat.ltb ?a ?b] => destruct (Nat.ltb_spec a b); try lia
  | |- context [Nat.leb ?a ?b] => destruct (Nat.leb_spec a b); try lia
  end; cbn [andb orb negb].

Section M.
  Variable T : ops.
  Notation F := (scalar T).
  Notation fmat := (nat -> nat -> F).
  Hypothesis OF : ordered_field T.
  Add Field fld : (of_field T OF).

  Notation "0" := (zero T).
  Notation "1" := (one T).
  Infix "+" := (add T).
  Infix "*" := (mul T).
  Infix "-" := (sub T).
  Notation "- x" := (opp T x).
  Infix "/" := (div T).
  Notation rep := (rep T).

  Definition pivoted (j p : nat) (f : fmat) : fmat := fun i c => f (perm j p i) c.
  Definition scaled (j : nat) (g : fmat) : fmat :=
    fun i c => if (j <? i)%nat && (c =? j)%nat then g i j * (1 / g j j) else g i c.
  Definition updated (j : nat) (g : fmat) : fmat :=
    fun i c => if (j <? i)%nat && (j <? c)%nat then g i c - g i j * g j c else g i c.
  Definition step (j p : nat) (f : fmat) : fmat :=
    updated j (if eqb T (f p j) 0 then f else scaled j (pivoted j p f)).

  Definition pivot_ok (M : nat) (f : fmat) (j p : nat) : Prop :=
    (j <= p < M)%nat /\ (forall i, (j <= i < M)%nat -> lt T (abs T (f p j)) (abs T (f i j)) = false) /\
    (f p j = 0 -> p = j).

  Inductive steps (M : nat) (a : fmat) : nat -> list nat -> fmat -> Prop :=
  | steps_0 : steps M a 0 [] a
  | steps_S : forall j ps p f, steps M a j ps f -> pivot_ok M f j p ->
      steps M a (S j) (ps ++ [p]) (step j p f).

  Lemma find_pivot_ok M N m f j : rep M N m f -> (j < M)%nat -> (j < N)%nat ->
    exists p, find_pivot T M m j = Some (p, abs T (f p j)) /\ pivot_ok M f j p.
  Proof.
    intros R Hj Hc. unfold find_pivot. rewrite (rep_get T M N m f j j R Hj Hc). cbn [obind].
    destruct (loop_inv (fun k (s : nat * F) => (j <= fst s < k)%nat /\ snd s = abs T (f (fst s) j) /\
      (forall i, (j <= i < k)%nat -> lt T (snd s) (abs T (f i j)) = false) /\
      (fst s = j \/ lt T 0 (snd s) = true))
      (fun i s => let? x := mget T m i j in let w := abs T x in if lt T (snd s) w then Some (i, w) else Some s)
      (Nat.add j 1) M (j, abs T (f j j))) as ((p & v) & E & I1 & I2 & I3 & I4).
    - lia.
    - cbn [fst snd]. split; [lia|]. split; [reflexivity|]. split; [|now left].
      intros i Hi. replace i with j by lia. apply (of_irrefl T OF).
    - intros k (p, v) Hk (I1 & I2 & I3 & I4). cbn [fst snd] in *.
      rewrite (rep_get T M N m f k j R) by lia. cbn [obind].
      destruct (lt T v (abs T (f k j))) eqn:L.
      + eexists. split; [reflexivity|]. cbn [fst snd]. split; [lia|]. split; [reflexivity|]. split.
        * intros i Hi. destruct (Nat.eq_dec i k) as [->|Hne]; [apply (of_irrefl T OF)|].
          destruct (lt T (abs T (f k j)) (abs T (f i j))) eqn:K; [|reflexivity].
          rewrite <- (of_trans T OF _ _ _ L K). apply I3. lia.
        * right. destruct (lt T 0 v) eqn:Z; [apply (of_trans T OF _ _ _ Z L)|].
          rewrite (of_total T OF 0 v Z); [exact L|]. rewrite I2. apply (abs_nonneg T OF).
      + exists (p, v). split; [reflexivity|]. cbn [fst snd]. split; [lia|]. split; [exact I2|]. split; [|exact I4].
        intros i Hi. destruct (Nat.eq_dec i k) as [->|Hne]; [exact L|]. apply I3. lia.
    - cbn [fst snd] in *. exists p. subst v. split; [exact E|]. split; [exact I1|]. split; [exact I3|].
      intros Z. destruct I4 as [I4|I4]; [exact I4|]. rewrite Z, (abs_of_zero T OF), (of_irrefl T OF) in I4. discriminate.
  Qed.

  Lemma apply_pivot_ok M N m f j p : rep M N m f -> (j < M)%nat -> (j < N)%nat -> (j <= p < M)%nat ->
    exists m', apply_pivot T M m j p (abs T (f p j)) = Some m' /\
      rep M N m' (if eqb T (f p j) 0 then f else scaled j (pivoted j p f)).
  Proof.
    intros R Hj Hc Hp. unfold apply_pivot.
    destruct (eqb_spec' T OF (abs T (f p j)) 0) as [E|E]; destruct (eqb_spec' T OF (f p j) 0) as [E'|E']; cbn [negb].
    - exists m. auto.
    - now apply (abs_zero T OF) in E.
    - rewrite E' in E. now rewrite (abs_of_zero T OF) in E.
    - destruct (rep_row T M N m f j R Hj) as (row & E1 & L1 & G1).
      destruct (rep_row T M N m f p R ltac:(lia)) as (rowp & E2 & L2 & G2).
      rewrite E1, E2. cbn [obind].
      destruct (rep_set_row T M N m f j rowp (fun c => f p c) R Hj L2 G2) as (m1 & S1 & R1).
      rewrite S1. cbn [obind].
      destruct (rep_set_row T M N m1 _ p row (fun c => f j c) R1 ltac:(lia) L1 G1) as (m2 & S2 & R2).
      rewrite S2. cbn [obind].
      assert (R3 : rep M N m2 (pivoted j p f)).
      { apply (rep_ext T M N m2 _ _ R2). intros i c Hi Hc'. unfold pivoted, perm. bools; reflexivity. }
      clear R1 R2. set (g := pivoted j p f) in *.
      destruct (Nat.ltb_spec (Nat.add j 1) M) as [Hl|Hl].
      + rewrite (rep_get T M N m2 g j j R3 Hj Hc). cbn [obind].
        destruct (loop_inv (fun k mk => rep M N mk (fun i c => if (j <? i)%nat && (i <? k)%nat && (c =? j)%nat
                                                  then g i j * (1 / g j j) else g i c))
          (fun i mat => let? x := mget T mat i j in mset T mat i j (x * (1 / g j j)))
          (Nat.add j 1) M m2) as (m3 & E3 & R4).
        * lia.
        * apply (rep_ext T M N m2 _ _ R3). intros i c Hi Hc'. bools; reflexivity.
        * intros k mk Hk Rk. rewrite (rep_get T M N mk _ k j Rk) by lia. cbn [obind].
          match goal with |- context [mset T mk k j ?x] =>
            destruct (rep_set T M N mk _ k j x Rk ltac:(lia) Hc) as (m' & S' & R') end.
          exists m'. split; [exact S'|]. apply (rep_ext T M N m' _ _ R').
          intros i c Hi Hc'. unfold upd. bools; reflexivity.
        * exists m3. split; [exact E3|]. apply (rep_ext T M N m3 _ _ R4).
          intros i c Hi Hc'. unfold scaled. bools; reflexivity.
      + exists m2. split; [reflexivity|]. apply (rep_ext T M N m2 _ _ R3).
        intros i c Hi Hc'. unfold scaled. bools; reflexivity.
  Qed.

  Lemma update_trailing_ok M N m g j : rep M N m g -> (j < M)%nat -> (j < N)%nat ->
    exists m', update_trailing T M N m j = Some m' /\ rep M N m' (updated j g).
  Proof.
    intros R Hj Hc. unfold update_trailing.
    destruct (Nat.ltb_spec (Nat.add j 1) N) as [Hl|Hl].
    - destruct (loop_inv (fun k mk => rep M N mk (fun i c => if (j <? i)%nat && (i <? k)%nat && (j <? c)%nat
                                                  then g i c - g i j * g j c else g i c))
        (fun i mat => let? a := mget T mat i j in
          loop (Nat.add j 1) N (fun k mat =>
          let? x := mget T mat i k in
          let? y := mget T mat j k in
          mset T mat i k (x - a * y)) mat) (Nat.add j 1) M m) as (m' & E & R').
      + lia.
      + apply (rep_ext T M N m _ _ R). intros i c Hi Hc'. bools; reflexivity.
      + intros i mi Hi Ri. rewrite (rep_get T M N mi _ i j Ri) by lia. cbn [obind].
        destruct (loop_inv (fun l ml => rep M N ml (fun r c =>
            if ((j <? r)%nat && (r <? i)%nat && (j <? c)%nat) || ((r =? i)%nat && (j <? c)%nat && (c <? l)%nat)
            then g r c - g r j * g j c else g r c))
          (fun k mat =>
            let? x := mget T mat i k in
            let? y := mget T mat j k in
            mset T mat i k (x - (if (j <? i)%nat && (i <? i)%nat && (j <? j)%nat
               then g i j - g i j * g j j else g i j) * y)) (Nat.add j 1) N mi) as (m' & E & R').
        * lia.
        * apply (rep_ext T M N mi _ _ Ri). intros r c Hr Hc'. bools; reflexivity.
        * intros l ml Hl' Rl. rewrite (rep_get T M N ml _ i l Rl) by lia. cbn [obind].
          rewrite (rep_get T M N ml _ j l Rl) by lia. cbn [obind].
          match goal with |- context [mset T ml i l ?x] =>
            destruct (rep_set T M N ml _ i l x Rl ltac:(lia) ltac:(lia)) as (m' & S' & R') end.
          exists m'. split; [exact S'|]. apply (rep_ext T M N m' _ _ R').
          intros r c Hr Hc'. unfold upd. bools; reflexivity.
        * exists m'. split; [exact E|]. apply (rep_ext T M N m' _ _ R').
          intros r c Hr Hc'. bools; reflexivity.
      + exists m'. split; [exact E|]. apply (rep_ext T M N m' _ _ R').
        intros r c Hr Hc'. unfold updated. bools; reflexivity.
    - exists m. split; [reflexivity|]. apply (rep_ext T M N m _ _ R).
      intros i c Hi Hc'. unfold updated. bools; reflexivity.
  Qed.

  Lemma steps_length M a j ps f : steps M a j ps f -> length ps = j.
  Proof. induction 1; [reflexivity|]. rewrite app_length. cbn. lia. Qed.

  Lemma decompose_ok M N m f : rep M N m f ->
    exists m' ps f', decompose T M N m = Some (m', ps) /\ rep M N m' f' /\ steps M f (Nat.min M N) ps f'.
  Proof.
    intros R. unfold decompose. set (n := Nat.min M N).
    assert (Hn : (n <= M /\ n <= N)%nat) by (unfold n; lia).
    destruct (loop_inv (fun j (s : list (list F) * list nat) => exists f' ps, rep M N (fst s) f' /\
        snd s = ps ++ repeat 0%nat (n - j) /\ steps M f j ps f')
      (fun j s => let? (p, v) := find_pivot T M (fst s) j in
        let? pivots := set_nth (snd s) j p in
        let? mat := apply_pivot T M (fst s) j p v in
        let? mat := update_trailing T M N mat j in
        Some (mat, pivots)) 0%nat n (m, repeat 0%nat n)) as ((m' & ps') & E & f' & ps & R' & Eps & S).
    - lia.
    - exists f, []. cbn [fst snd app]. rewrite Nat.sub_0_r. repeat split; [apply R|apply R|apply R|constructor].
    - intros j (mj, pv) Hj (f' & ps & R' & E & S). cbn [fst snd] in *.
      destruct (find_pivot_ok M N mj f' j R' ltac:(lia) ltac:(lia)) as (p & Ep & Hp). rewrite Ep. cbn [obind].
      rewrite E. replace (n - j)%nat with (Datatypes.S (n - (j + 1))) by lia. cbn [repeat].
      assert (Es : set_nth (ps ++ 0%nat :: repeat 0%nat (n - (j + 1))) j p =
                   Some (ps ++ p :: repeat 0%nat (n - (j + 1)))).
      { rewrite <- (steps_length _ _ _ _ _ S). apply set_nth_app. }
      rewrite Es. cbn [obind].
      destruct (apply_pivot_ok M N mj f' j p R' ltac:(lia) ltac:(lia) (proj1 Hp)) as (m1 & E1 & R1).
      rewrite E1. cbn [obind].
      destruct (update_trailing_ok M N m1 _ j R1 ltac:(lia) ltac:(lia)) as (m2 & E2 & R2).
      rewrite E2. cbn [obind]. eexists. split; [reflexivity|]. cbn [fst snd].
      exists (step j p f'), (ps ++ [p]). split; [exact R2|]. split; [now rewrite <- app_assoc|].
      rewrite Nat.add_1_r. now constructor.
    - cbn [fst snd] in R', Eps. rewrite Nat.sub_diag in Eps. cbn [repeat] in Eps. rewrite app_nil_r in Eps.
      subst ps'. exists m', ps, f'.
      split; [exact E|]. split; assumption.
  Qed.

  (* ---- the factors ---- *)

  Fixpoint perms (k : nat) (ps : list nat) (i : nat) : nat :=
    match ps with [] => i | p :: ps => perms (S k) ps (perm k p i) end.
  (* and in the opposite order *)
  Fixpoint perms_inv (k : nat) (ps : list nat) (i : nat) : nat :=
    match ps with [] => i | p :: ps => perm k p (perms_inv (S k) ps i) end.

  Lemma perm_perm k p i : perm k p (perm k p i) = i.
  Proof. unfold perm. destruct (Nat.eqb_spec i p), (Nat.eqb_spec i k); subst; bools; congruence || reflexivity. Qed.
  Lemma perm_lt n k p i : (k < n)%nat -> (p < n)%nat -> (i < n)%nat -> (perm k p i < n)%nat.
  Proof. intros. unfold perm. bools. Qed.
  Lemma perms_perms_inv ps : forall k i, perms k ps (perms_inv k ps i) = i.
  Proof. induction ps as [|p ps IH]; intros k i; [reflexivity|]. cbn [perms perms_inv]. rewrite perm_perm. apply IH. Qed.
  Lemma perms_inv_perms ps : forall k i, perms_inv k ps (perms k ps i) = i.
  Proof. induction ps as [|p ps IH]; intros k i; [reflexivity|]. cbn [perms perms_inv]. rewrite IH. apply perm_perm. Qed.
  Lemma perms_lt n ps : Forall (fun p => (p < n)%nat) ps -> forall k i, (k + length ps <= n)%nat -> (i < n)%nat ->
    (perms k ps i < n)%nat.
  Proof.
    induction 1 as [|p ps Hp _ IH]; intros k i Hk Hi; [exact Hi|]. cbn [perms length] in *.
    apply IH; [lia|]. apply perm_lt; lia.
  Qed.
  Lemma perms_inv_lt n ps : Forall (fun p => (p < n)%nat) ps -> forall k i, (k + length ps <= n)%nat -> (i < n)%nat ->
    (perms_inv k ps i < n)%nat.
  Proof.
    induction 1 as [|p ps Hp _ IH]; intros k i Hk Hi; [exact Hi|]. cbn [perms_inv length] in *.
    apply perm_lt; try lia. apply IH; lia.
  Qed.
  Lemma perms_inv_snoc ps p : forall k i, perms_inv k (ps ++ [p]) i = perms_inv k ps (perm (k + length ps) p i).
  Proof.
    induction ps as [|q ps IH]; intros k i; cbn [app perms_inv length].
    - now rewrite Nat.add_0_r.
    - rewrite IH. now replace (S k + length ps)%nat with (k + S (length ps))%nat by lia.
  Qed.

  (* product with a permutation matrix *)
  Lemma perm_matrix_mul n k p b i j : (k < n)%nat -> (p < n)%nat -> (i < n)%nat ->
    mmul T n (perm_matrix T k p) b i j = b (perm k p i) j.
  Proof.
    intros Hk Hp Hi. unfold mmul. rewrite (sum_single T OF n _ (perm k p i)).
    - unfold perm_matrix. rewrite perm_perm, Nat.eqb_refl. ring.
    - now apply perm_lt.
    - intros l _ Hl. unfold perm_matrix. destruct (Nat.eqb_spec (perm k p l) i) as [E|_]; [|ring].
      exfalso. apply Hl. rewrite <- E. now rewrite perm_perm.
  Qed.
  Lemma perm_product_mul n ps : Forall (fun p => (p < n)%nat) ps -> forall k b i j, (k + length ps <= n)%nat -> (i < n)%nat ->
    mmul T n (perm_product T n k ps) b i j = b (perms k ps i) j.
  Proof.
    induction 1 as [|p ps Hp _ IH]; intros k b i j Hk Hi; cbn [perm_product perms length] in *.
    - now apply mmul_ident_l.
    - rewrite (mmul_assoc T OF), perm_matrix_mul by lia. apply IH; [lia|]. apply perm_lt; lia.
  Qed.

  Lemma steps_bounds M a j ps f : steps M a j ps f -> Forall (fun p => (p < M)%nat) ps /\
    forall k, (k < j)%nat -> (k <= nth k ps 0%nat)%nat.
  Proof.
    induction 1 as [|j ps p f S (IH1 & IH2) Hp]; [split; [constructor|intros; lia]|]. split.
    - apply Forall_app. split; [exact IH1|]. constructor; [apply Hp|constructor].
    - intros k Hk. apply steps_length in S.
      destruct (Nat.eq_dec k j) as [->|Hne].
      + rewrite app_nth2 by lia. rewrite S, Nat.sub_diag. cbn. apply Hp.
      + rewrite app_nth1 by lia. apply IH2. lia.
  Qed.

  Lemma pivoted_lt j p f i c : (i < j)%nat -> (j <= p)%nat -> pivoted j p f i c = f i c.
  Proof. intros. unfold pivoted, perm. bools; reflexivity. Qed.

  (* When the pivot is zero, then the row is not exchanged with another row. *)
  Lemma step_pivoted M j p f : pivot_ok M f j p -> forall i c,
    step j p f i c = updated j (if eqb T (f p j) 0 then pivoted j p f else scaled j (pivoted j p f)) i c.
  Proof.
    intros (_ & _ & Z) i c. unfold step. destruct (eqb_spec' T OF (f p j) 0) as [E|E]; [|reflexivity].
    rewrite (Z E). unfold updated, pivoted, perm. bools; reflexivity.
  Qed.

  Definition lpart (f : fmat) := lower T true f.
  Definition upart (f : fmat) := upper T false f.

  Lemma steps_lu M N a j ps f : steps M a j ps f -> (j <= M)%nat -> (j <= N)%nat ->
    forall i c, (i < M)%nat -> (c < N)%nat ->
    a (perms_inv 0 ps i) c =
      mmul T j (lpart f) (upart f) i c + (if (j <=? i)%nat && (j <=? c)%nat then f i c else 0).
  Proof.
    induction 1 as [|j ps p f S IH Hp]; intros HM HN i c Hi Hc.
    - cbn. ring.
    - rewrite perms_inv_snoc. rewrite (steps_length _ _ _ _ _ S). cbn [Nat.add].
      destruct Hp as (Hp1 & Hp2 & Hp3).
      rewrite IH by (try assumption; try lia; apply perm_lt; lia).
      set (g := pivoted j p f).
      assert (Eg : forall c, f (perm j p i) c = g i c) by reflexivity.
      assert (E1 : mmul T j (lpart f) (upart f) (perm j p i) c = mmul T j (lpart g) (upart g) i c).
      { apply sum_ext. intros k Hk. f_equal.
        - unfold lpart, lower. rewrite (Eg k). unfold perm. bools; reflexivity.
        - unfold upart, upper. unfold g. rewrite !pivoted_lt by lia. reflexivity. }
      rewrite E1, Eg.
      assert (E2 : (j <=? perm j p i)%nat = (j <=? i)%nat) by (unfold perm; bools; reflexivity).
      rewrite E2.
      set (f3 := step j p f).
      assert (E3 : forall r c, f3 r c = updated j (if eqb T (f p j) 0 then g else scaled j g) r c).
      { intros r d. apply (step_pivoted M). repeat split; assumption || lia. }
      change (mmul T (Datatypes.S j) (lpart f3) (upart f3) i c) with
        (mmul T j (lpart f3) (upart f3) i c + lpart f3 i j * upart f3 j c).
      assert (E4 : mmul T j (lpart f3) (upart f3) i c = mmul T j (lpart g) (upart g) i c).
      { apply sum_ext. intros k Hk. f_equal.
        - unfold lpart, lower. rewrite E3. unfold updated. destruct (eqb T (f p j) 0); unfold scaled; bools; reflexivity.
        - unfold upart, upper. rewrite E3. unfold updated. destruct (eqb T (f p j) 0); unfold scaled; bools; reflexivity. }
      rewrite E4. 
      assert (Hpj : f p j = g j j) by (unfold g, pivoted, perm; bools; reflexivity).
      assert (Z : g j j = 0 -> (j <= i)%nat -> g i j = 0).
      { intros Z Hji. rewrite <- Hpj in Z. specialize (Hp2 (perm j p i)).
        apply (abs_zero T OF). rewrite Z, (abs_of_zero T OF) in Hp2.
        symmetry. apply (of_total T OF); [|apply (abs_nonneg T OF)].
        apply Hp2. split; [unfold perm; bools|apply perm_lt; lia]. }
      clearbody f3. rewrite Hpj in E3.
      unfold lpart, upart, lower, upper.
      destruct (eqb_spec' T OF (g j j) 0) as [Hz|Hz].
      + rewrite !E3. unfold updated. specialize (Z Hz). bools; try (rewrite Z by lia); try ring.
        all: try (rewrite Hz; ring).
      + rewrite !E3. unfold updated, scaled. bools; try ring; try (field; exact Hz).
  Qed.
End M.
