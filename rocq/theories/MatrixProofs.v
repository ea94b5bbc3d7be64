(* Lemmas about matrices: loops, representation, sums, and the steps of decompose(). *)
From Coq Require Import Arith Bool List Lia Field.
From Verif Require Import MatrixModel MatrixSpec ArrLib.
Import ListNotations.

Lemma up_inv {S} (I : nat -> S -> Prop) body : forall n i s, I i s ->
  (forall k s, i <= k < i + n -> I k s -> exists s', body k s = Some s' /\ I (k + 1) s') ->
  exists s', up i n body s = Some s' /\ I (i + n) s'.
Proof.
  induction n as [|n IH]; intros i s Hi Hs; cbn [up].
  - exists s. rewrite Nat.add_0_r. auto.
  - destruct (Hs i s) as (s' & E & I'); [lia|exact Hi|]. rewrite E. cbn [obind].
    rewrite Nat.add_1_r in I'. destruct (IH (Datatypes.S i) s' I') as (s2 & E2 & I2).
    + intros k t Hk. apply Hs. lia.
    + exists s2. split; [exact E2|]. now replace (i + Datatypes.S n) with (Datatypes.S i + n) by lia.
Qed.

Lemma loop_inv {S} (I : nat -> S -> Prop) body i n s : i <= n -> I i s ->
  (forall k s, i <= k < n -> I k s -> exists s', body k s = Some s' /\ I (k + 1) s') ->
  exists s', loop i n body s = Some s' /\ I n s'.
Proof.
  intros H Hi Hs. unfold loop. destruct (up_inv I body (n - i) i s Hi) as (s' & E & I').
  - intros k t Hk. apply Hs. lia.
  - exists s'. split; [exact E|]. now replace n with (i + (n - i)) by lia.
Qed.

Lemma loop_down_inv {S} (I : nat -> S -> Prop) body : forall n s, I n s ->
  (forall k s, k < n -> I (k + 1) s -> exists s', body (k + 1) s = Some s' /\ I k s') ->
  exists s', loop_down n body s = Some s' /\ I 0 s'.
Proof.
  induction n as [|n IH]; intros s Hi Hs.
  - exists s. auto.
  - change (loop_down (Datatypes.S n) body s) with (obind (body (Datatypes.S n) s) (fun s => loop_down n body s)).
    destruct (Hs n s) as (s' & E & I'); [lia|now rewrite Nat.add_1_r|].
    rewrite Nat.add_1_r in E. rewrite E. cbn [obind]. apply IH; [exact I'|]. intros k t Hk. apply Hs. lia.
Qed.

Section M.
  Variable T : ops.
  Notation F := (scalar T).
  Notation fmat := (nat -> nat -> F).
  Hypothesis OF : ordered_field T.
  Add Field fld : (of_field T OF).

  Notation "0" := (zero T).
  Notation "1" := (one T).
  Infix "+" := (add T).
  Infix "*" := (mul T).
  Infix "-" := (sub T).
  Notation "- x" := (opp T x).
  Infix "/" := (div T).

  Definition rep (M N : nat) (m : list (list F)) (f : fmat) : Prop :=
    is_matrix T M N m /\ forall i j, i < M -> j < N -> mget T m i j = Some (f i j).

  Lemma rep_entry M N m : is_matrix T M N m -> rep M N m (entry T m).
  Proof.
    intros (L & R). split; [now split|]. intros i j Hi Hj. unfold mget, entry.
    destruct (nth_error m i) as [row|] eqn:E; [|apply nth_error_None in E; lia]. cbn [obind].
    rewrite (nth_error_nth m i [] E). apply nth_error_nth'.
    rewrite Forall_forall in R. rewrite (R row); [exact Hj|]. eapply nth_error_In, E.
  Qed.

  Lemma rep_get M N m f i j : rep M N m f -> i < M -> j < N -> mget T m i j = Some (f i j).
  Proof. intros (_ & H). apply H. Qed.

  Lemma rep_eq M N m f i j : rep M N m f -> i < M -> j < N -> entry T m i j = f i j.
  Proof.
    intros R Hi Hj. pose proof (rep_get M N m f i j R Hi Hj) as G.
    destruct R as (R & _). apply rep_entry in R. rewrite (rep_get _ _ _ _ i j R Hi Hj) in G. now inversion G.
  Qed.

  Lemma rep_ext M N m f g : rep M N m f -> meq T M N f g -> rep M N m g.
  Proof. intros (H & G) E. split; [exact H|]. intros i j Hi Hj. rewrite G by assumption. now rewrite E. Qed.

  Definition upd (f : fmat) (i j : nat) (x : F) : fmat :=
    fun r c => if (r =? i)%nat && (c =? j)%nat then x else f r c.

  Lemma Forall_set {A} (P : A -> Prop) l l' n x : set_nth l n x = Some l' -> Forall P l -> P x -> Forall P l'.
  Proof.
    intros E H Hx. apply set_nth_inv in E. destruct E as (_ & ->).
    rewrite <- (firstn_skipn n l) in H. apply Forall_app in H. destruct H as (H1 & H2).
    apply Forall_app. split; [exact H1|]. constructor; [exact Hx|].
    rewrite <- (firstn_skipn (S n) l) in H1.
    destruct (skipn n l) as [|y l2] eqn:E; 
      [apply Forall_forall; intros z Hz;
       assert (K : skipn (S n) l = []) by (apply length_zero_iff_nil; rewrite skipn_length;
         apply (f_equal (@length _)) in E; rewrite skipn_length in E; cbn in E; lia); rewrite K in Hz; destruct Hz|].
    assert (K : skipn (S n) l = l2).
    { clear - E. revert l E. induction n; intros [|z l] E; try discriminate E; [cbn in E; inversion E; reflexivity|].
      cbn [skipn]. apply IHn. exact E. }
    rewrite K. now inversion H2.
  Qed.

  Lemma set_nth_ex {A} (l : list A) n x : n < length l -> exists l', set_nth l n x = Some l'.
  Proof. intros H. eexists. now apply set_nth_some. Qed.

  Lemma rep_set M N m f i j x : rep M N m f -> i < M -> j < N ->
    exists m', mset T m i j x = Some m' /\ rep M N m' (upd f i j x).
  Proof.
    intros ((L & R) & G) Hi Hj. unfold mset.
    destruct (nth_error m i) as [row|] eqn:E; [|apply nth_error_None in E; lia]. cbn [obind].
    assert (Lr : length row = N) by (rewrite Forall_forall in R; apply R; eapply nth_error_In, E).
    destruct (set_nth_ex row j x) as (row' & E1); [lia|]. rewrite E1. cbn [obind].
    destruct (set_nth_ex m i row') as (m' & E2); [lia|]. exists m'. split; [exact E2|]. split; [split|].
    - now rewrite (set_nth_length _ _ _ _ E2).
    - apply (Forall_set _ _ _ _ _ E2 R). now rewrite (set_nth_length _ _ _ _ E1).
    - intros r c Hr Hc. unfold mget, upd. rewrite (nth_error_set_nth _ _ _ _ r E2).
      destruct (Nat.eqb_spec r i) as [->|Hne]; cbn [obind andb].
      + rewrite (nth_error_set_nth _ _ _ _ c E1). destruct (Nat.eqb_spec c j); [reflexivity|].
        specialize (G i c Hi Hc). unfold mget in G. now rewrite E in G.
      + specialize (G r c Hr Hc). exact G.
  Qed.

  Lemma rep_row M N m f i : rep M N m f -> i < M -> exists row, nth_error m i = Some row /\ length row = N /\
    forall c, c < N -> nth_error row c = Some (f i c).
  Proof.
    intros ((L & R) & G) Hi.
    destruct (nth_error m i) as [row|] eqn:E; [|apply nth_error_None in E; lia]. exists row. split; [reflexivity|].
    split; [rewrite Forall_forall in R; apply R; eapply nth_error_In, E|].
    intros c Hc. specialize (G i c Hi Hc). unfold mget in G. rewrite E in G. exact G.
  Qed.

  Lemma rep_set_row M N m f i row g : rep M N m f -> i < M -> length row = N ->
    (forall c, c < N -> nth_error row c = Some (g c)) ->
    exists m', set_nth m i row = Some m' /\ rep M N m' (fun r c => if (r =? i)%nat then g c else f r c).
  Proof.
    intros ((L & R) & G) Hi Lr Gr.
    destruct (set_nth_ex m i row) as (m' & E2); [lia|]. exists m'. split; [exact E2|]. split; [split|].
    - now rewrite (set_nth_length _ _ _ _ E2).
    - now apply (Forall_set _ _ _ _ _ E2 R).
    - intros r c Hr Hc. unfold mget. rewrite (nth_error_set_nth _ _ _ _ r E2).
      destruct (Nat.eqb_spec r i) as [->|Hne]; cbn [obind].
      + now apply Gr.
      + specialize (G r c Hr Hc). exact G.
  Qed.

  (* ---- order and absolute value ---- *)

  Lemma abs_zero x : abs T x = 0 -> x = 0.
  Proof.
    unfold abs. destruct (lt T x 0) eqn:L; [|auto]. intros H.
    replace x with (- (- x)) by ring. rewrite H. ring.
  Qed.
  Lemma abs_of_zero : abs T 0 = 0.
  Proof. unfold abs. now rewrite (of_irrefl T OF). Qed.
  Lemma abs_nonneg x : lt T (abs T x) 0 = false.
  Proof.
    unfold abs. destruct (lt T x 0) eqn:L; [|exact L].
    destruct (lt T (- x) 0) eqn:K; [|reflexivity].
    apply (of_add T OF) with (z := x) in K. replace (- x + x) with 0 in K by ring. replace (0 + x) with x in K by ring.
    pose proof (of_trans T OF _ _ _ L K) as C. now rewrite (of_irrefl T OF) in C.
  Qed.
  Lemma eqb_spec' x y : reflect (x = y) (eqb T x y).
  Proof. apply iff_reflect. symmetry. apply (of_eqb T OF). Qed.

  (* ---- sums ---- *)

  Lemma sum_ext n f g : (forall k, k < n -> f k = g k) -> sum T n f = sum T n g.
  Proof.
    induction n as [|n IH]; intros H; [reflexivity|]. cbn [sum]. rewrite IH by (intros; apply H; lia).
    now rewrite (H n) by lia.
  Qed.
  Lemma sum_zero n f : (forall k, k < n -> f k = 0) -> sum T n f = 0.
  Proof.
    induction n as [|n IH]; intros H; [reflexivity|]. cbn [sum]. rewrite IH by (intros; apply H; lia).
    rewrite (H n) by lia. ring.
  Qed.
  Lemma sum_add n f g : sum T n (fun k => f k + g k) = sum T n f + sum T n g.
  Proof. induction n as [|n IH]; cbn [sum]; [|rewrite IH]; ring. Qed.
  Lemma sum_scale n c f : sum T n (fun k => c * f k) = c * sum T n f.
  Proof. induction n as [|n IH]; cbn [sum]; [|rewrite IH]; ring. Qed.
  Lemma sum_scale_r n c f : sum T n (fun k => f k * c) = sum T n f * c.
  Proof. induction n as [|n IH]; cbn [sum]; [|rewrite IH]; ring. Qed.
  Lemma sum_swap m n f : sum T m (fun i => sum T n (fun j => f i j)) = sum T n (fun j => sum T m (fun i => f i j)).
  Proof.
    induction m as [|m IH]; cbn [sum].
    - symmetry. now apply sum_zero.
    - rewrite IH. now rewrite sum_add.
  Qed.
  (* all terms but one are zero *)
  Lemma sum_single n f i : i < n -> (forall k, k < n -> k <> i -> f k = 0) -> sum T n f = f i.
  Proof.
    induction n as [|n IH]; intros Hi H; [lia|]. cbn [sum].
    destruct (Nat.eq_dec i n) as [->|Hne].
    - rewrite sum_zero by (intros; apply H; lia). ring.
    - rewrite IH by (intros; try apply H; lia). rewrite (H n) by lia. ring.
  Qed.
  Lemma sum_shorter m n f : m <= n -> (forall k, m <= k < n -> f k = 0) -> sum T n f = sum T m f.
  Proof.
    intros Hm H. induction n as [|n IH]; [now replace m with 0%nat by lia|].
    destruct (Nat.eq_dec m (S n)) as [->|Hne]; [reflexivity|].
    cbn [sum]. rewrite IH by (intros; try apply H; lia). rewrite (H n) by lia. ring.
  Qed.

  Lemma mmul_assoc m n a b c i j :
    mmul T n (mmul T m a b) c i j = mmul T m a (mmul T n b c) i j.
  Proof.
    unfold mmul.
    rewrite (sum_ext n _ (fun k => sum T m (fun l => a i l * b l k * c k j))) by (intros; now rewrite sum_scale_r).
    rewrite sum_swap. apply sum_ext. intros l _.
    rewrite <- sum_scale. apply sum_ext. intros. ring.
  Qed.
  Lemma mmul_ident_l n a i j : i < n -> mmul T n (ident T) a i j = a i j.
  Proof.
    intros Hi. unfold mmul. rewrite (sum_single n _ i Hi).
    - unfold ident. rewrite Nat.eqb_refl. ring.
    - intros k _ Hk. unfold ident. rewrite (proj2 (Nat.eqb_neq i k)) by lia. ring.
  Qed.
  Lemma mmul_ident_r n a i j : j < n -> mmul T n a (ident T) i j = a i j.
  Proof.
    intros Hi. unfold mmul. rewrite (sum_single n _ j Hi).
    - unfold ident. rewrite Nat.eqb_refl. ring.
    - intros k _ Hk. unfold ident. rewrite (proj2 (Nat.eqb_neq k j)) by lia. ring.
  Qed.
  Lemma mmul_ext_l n a a' b i j : (forall k, k < n -> a i k = a' i k) -> mmul T n a b i j = mmul T n a' b i j.
  Proof. intros H. apply sum_ext. intros k Hk. now rewrite H. Qed.
  Lemma mmul_ext_r n a b b' i j : (forall k, k < n -> b k j = b' k j) -> mmul T n a b i j = mmul T n a b' i j.
  Proof. intros H. apply sum_ext. intros k Hk. now rewrite H. Qed.
End M.
