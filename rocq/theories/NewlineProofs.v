(* Lemmas on newline encoding and decoding. *)
From Coq Require Import List Arith Bool Lia.
From Verif Require Import NewlineModel NewlineSpec.
Import ListNotations.

Lemma two_step_ind : forall (P : list nat -> Prop), P [] -> (forall x, P [x]) ->
  (forall x y s, P s -> P (y :: s) -> P (x :: y :: s)) -> forall s, P s.
Proof.
  intros P A B C s. enough (Q : P s /\ forall x, P (x :: s)) by apply Q.
  induction s as [|y s [I1 I2]]; split; auto.
Qed.

(* ---- how bytes are read ---- *)

Lemma reads_det : forall s cs, reads s cs -> forall cs', reads s cs' -> cs = cs'.
Proof.
  intros s cs R. induction R as [|s cs R IH|x s cs N R IH]; intros cs' R'.
  - inversion R'; reflexivity.
  - inversion R' as [|s' cs2 R2|x s' cs2 N R2]; subst.
    + f_equal. auto.
    + exfalso. apply N. split; [reflexivity|exists s; reflexivity].
  - inversion R' as [|s' cs2 R2|x' s' cs2 N2 R2]; subst.
    + exfalso. apply N. split; [reflexivity|exists s'; reflexivity].
    + f_equal. auto.
Qed.

Lemma reads_exists : forall s, exists cs, reads s cs.
Proof.
  apply two_step_ind.
  - exists []. constructor.
  - intros x. exists [(x, 1)]. apply reads_other; [intros [_ [r E]]; discriminate|constructor].
  - intros x y s [c1 R1] [c2 R2].
    destruct (Nat.eq_dec x 13) as [->|Nx]; [destruct (Nat.eq_dec y 10) as [->|Ny]|].
    + exists ((10, 2) :: c1). constructor. assumption.
    + exists ((13, 1) :: c2). apply reads_other; [|assumption]. intros [_ [r E]]. injection E as E _. auto.
    + exists ((x, 1) :: c2). apply reads_other; [|assumption]. intros [E _]. auto.
Qed.

Lemma reads_pair : forall s cs, reads (13 :: 10 :: s) cs -> exists cs', cs = (10, 2) :: cs' /\ reads s cs'.
Proof.
  intros s cs R. inversion R as [|s' cs2 R2|x s' cs2 N R2]; subst; [eauto|].
  exfalso. apply N. split; [reflexivity|exists s; reflexivity].
Qed.
Lemma reads_single : forall x s cs, ~ (x = 13 /\ exists r, s = 10 :: r) -> reads (x :: s) cs ->
  exists cs', cs = (x, 1) :: cs' /\ reads s cs'.
Proof.
  intros x s cs N R. inversion R as [|s' cs2 R2|x' s' cs2 N2 R2]; subst; [|eauto].
  exfalso. apply N. split; [reflexivity|exists s'; reflexivity].
Qed.

Lemma reads_extent : forall s cs, reads s cs -> extent cs = length s.
Proof. intros s cs R. induction R; cbn; rewrite ?IHR; auto. Qed.

Lemma extent_app : forall a b, extent (a ++ b) = extent a + extent b.
Proof. induction a as [|[x w] a IH]; intros b; [reflexivity|].
  change (w + extent (a ++ b) = w + extent a + extent b). rewrite IH. lia. Qed.

Lemma reads_widths : forall s cs, reads s cs -> Forall (fun c => snd c = 1 \/ c = (10, 2)) cs.
Proof. intros s cs R. induction R; constructor; auto. Qed.

Lemma extent_ge : forall s cs, reads s cs -> forall n, length (firstn n cs) <= extent (firstn n cs).
Proof.
  intros s cs R n. assert (A := reads_widths s cs R). clear R. revert n. induction A as [|[x w] cs B A IH]; intros [|n]; [cbn; lia|cbn; lia|cbn; lia|].
  change (S (length (firstn n cs)) <= w + extent (firstn n cs)).
  specialize (IH n). destruct B as [B|B]; [cbn in B|injection B as -> ->]; lia.
Qed.

(* What follows some of the characters *)
Lemma reads_skip : forall s cs, reads s cs -> forall n, reads (skipn (extent (firstn n cs)) s) (skipn n cs).
Proof.
  intros s cs R. induction R as [|s cs R IH|x s cs N R IH]; intros [|n]; cbn; try constructor; auto; apply IH.
Qed.

Lemma extent_firstn_le : forall s cs, reads s cs -> forall n, extent (firstn n cs) <= length s.
Proof.
  intros s cs R n. rewrite <- (reads_extent s cs R). rewrite <- (firstn_skipn n cs) at 2. rewrite extent_app. lia.
Qed.

(* ---- decoding ---- *)

Definition some_pair_dec : forall cs : list (nat * nat), {In (10, 2) cs} + {~ In (10, 2) cs}.
Proof. intros cs. apply in_dec. decide equality; apply Nat.eq_dec. Defined.

(* the value of clear *)
Definition clear_ok (cs : list (nat * nat)) (base clear k : nat) : Prop :=
  (forall m, last_pair cs m -> k = base + m) /\ (~ In (10, 2) cs -> k = clear).

Lemma clear_cons : forall x cs base clear k, clear_ok cs (S base) clear k -> clear_ok ((x, 1) :: cs) base clear k.
Proof.
  intros x cs base clear k [A B]. split.
  - intros m (a & b & E & -> & N). destruct a as [|c a]; [discriminate|]. injection E as <- E.
    rewrite (A (length a + 1)); [cbn; lia|]. exists a, b. auto.
  - intros N. apply B. intros I. apply N. right. assumption.
Qed.

Lemma clear_pair : forall cs base clear k, clear_ok cs (S base) (S base) k -> clear_ok ((10, 2) :: cs) base clear k.
Proof.
  intros cs base clear k [A B]. split.
  - intros m (a & b & E & -> & N). destruct a as [|c a].
    + injection E as ->. rewrite B by assumption. cbn. lia.
    + injection E as <- E. rewrite (A (length a + 1)); [cbn; lia|]. exists a, b. auto.
  - intros N. exfalso. apply N. left. reflexivity.
Qed.

Lemma decode_copy : forall data eod j size co k ch, j < size ->
  negb (ch =? CR) = true \/ (exists c2 d, data = c2 :: d /\ c2 <> NL) \/ (data = [] /\ eod = true) ->
  decode_loop (ch :: data) eod j size co k =
  let '(n, out, k) := decode_loop data eod (S j) size co k in (S n, ch :: out, k).
Proof.
  intros data eod j size co k ch L H. cbn [decode_loop]. rewrite (proj2 (Nat.ltb_lt j size) L).
  destruct (negb (ch =? CR)); [reflexivity|]. destruct H as [H|[(c2 & d & -> & N)|[-> ->]]]; [discriminate| |reflexivity].
  rewrite (proj2 (Nat.eqb_neq c2 NL) N). reflexivity.
Qed.

Lemma decode_pair : forall data eod j size co k, j < size ->
  decode_loop (13 :: 10 :: data) eod j size co k =
  let '(n, out, k) := decode_loop data eod (S j) size co (co + S j) in (S (S n), 10 :: out, k).
Proof. intros data eod j size co k L. cbn [decode_loop]. rewrite (proj2 (Nat.ltb_lt j size) L). reflexivity. Qed.

Definition decoded (data : list nat) (eod : bool) (j size co k : nat) (r : nat * list nat * nat) : Prop :=
  let '(n, out, k') := r in
  j + length out <= max j size /\ n <= length data /\
  (forall more cs, (eod = true -> more = []) -> reads (data ++ more) cs ->
    out = map fst (firstn (length out) cs) /\ n = extent (firstn (length out) cs) /\ clear_ok (firstn (length out) cs) (co + j) k k') /\
  (size <= j + length out \/ n = length data \/ (eod = false /\ skipn n data = [13])).

Lemma decode_loop_spec : forall data eod j size co k, decoded data eod j size co k (decode_loop data eod j size co k).
Proof.
  assert (Stop : forall data eod j size co k, size <= j \/ data = [] \/ (eod = false /\ data = [13]) -> decoded data eod j size co k (0, [], k)).
  { intros data eod j size co k H. split; [cbn; lia|]. split; [lia|]. split.
    - intros more cs _ _. cbn. split; [reflexivity|]. split; [reflexivity|]. split; [|reflexivity].
      intros m (a & b & E & _). destruct a; discriminate.
    - destruct H as [H|[->|[-> ->]]]; [left; cbn; lia|right; left; reflexivity|right; right; auto]. }
  assert (Copy : forall ch data eod j size co k n out k', j < size ->
    (forall more, (eod = true -> more = []) -> ~ (ch = 13 /\ exists r, data ++ more = 10 :: r)) ->
    decoded data eod (S j) size co k (n, out, k') -> decoded (ch :: data) eod j size co k (S n, ch :: out, k')).
  { intros ch data eod j size co k n out k' L N (D1 & D2 & D3 & D4). split; [cbn; lia|]. split; [cbn; lia|]. split.
    - intros more cs M R. apply reads_single in R; [|apply N, M]. destruct R as (cs' & -> & R).
      destruct (D3 more cs' M R) as (E1 & E2 & E3). cbn [length firstn map fst]. split; [congruence|]. split; [exact (f_equal S E2)|].
      apply clear_cons. rewrite <- Nat.add_succ_r. assumption.
    - cbn [length skipn]. destruct D4 as [D4|[D4|D4]]; [left; lia|right; left; lia|right; right; assumption]. }
  intros data. induction data as [|x|x y s I1 I2] using two_step_ind; intros eod j size co k.
  - apply Stop. auto.
  - destruct (Nat.ltb_spec j size) as [L|L].
    + destruct (Nat.eqb_spec x CR) as [->|N].
      * destruct eod.
        -- rewrite decode_copy by auto. apply Copy; [assumption| |].
           ++ intros more M [_ [r E]]. rewrite M in E by reflexivity. discriminate.
           ++ apply Stop. auto.
        -- cbn [decode_loop]. rewrite (proj2 (Nat.ltb_lt j size) L). apply Stop. right. right. auto.
      * rewrite decode_copy; [|assumption|left; apply negb_true_iff, Nat.eqb_neq, N].
        apply Copy; [assumption| |apply Stop; auto]. intros more M [E _]. apply N, E.
    + cbn [decode_loop]. rewrite (proj2 (Nat.ltb_ge j size) L). apply Stop. left. assumption.
  - destruct (Nat.ltb_spec j size) as [L|L].
    + destruct (Nat.eq_dec x 13) as [->|N].
      * destruct (Nat.eq_dec y 10) as [->|N].
        -- rewrite decode_pair by assumption. specialize (I1 eod (S j) size co (co + S j)).
           destruct (decode_loop s eod (S j) size co (co + S j)) as [[n out] k'].
           destruct I1 as (D1 & D2 & D3 & D4). split; [cbn; lia|]. split; [cbn; lia|]. split.
           ++ intros more cs M R. apply reads_pair in R. destruct R as (cs' & -> & R).
              destruct (D3 more cs' M R) as (E1 & E2 & E3). cbn [length firstn map fst]. split; [congruence|]. split; [exact (f_equal S (f_equal S E2))|].
              apply clear_pair. rewrite <- Nat.add_succ_r. assumption.
           ++ cbn [length skipn]. destruct D4 as [D4|[D4|D4]]; [left; lia|right; left; lia|right; right; assumption].
        -- rewrite decode_copy; [|assumption|right; left; exists y, s; auto]. specialize (I2 eod (S j) size co k).
           destruct (decode_loop (y :: s) eod (S j) size co k) as [[n out] k']. apply Copy; [assumption| |assumption].
           intros more M [_ [r E]]. injection E as E _. auto.
      * rewrite decode_copy; [|assumption|left; apply negb_true_iff, Nat.eqb_neq, N]. specialize (I2 eod (S j) size co k).
        destruct (decode_loop (y :: s) eod (S j) size co k) as [[n out] k']. apply Copy; [assumption| |assumption].
        intros more M [E _]. auto.
    + cbn [decode_loop]. rewrite (proj2 (Nat.ltb_ge j size) L). apply Stop. left. assumption.
Qed.

(* ---- simulation ---- *)

Lemma simul_loop_spec : forall data cs, reads data cs -> forall remain,
  simul_loop data remain = if remain <=? length cs then Some (extent (firstn remain cs)) else None.
Proof.
  intros data cs R. induction R as [|s cs R IH|x s cs N R IH]; intros [|m]; try reflexivity.
  - cbn [simul_loop]. change (negb (13 =? CR)) with false. change (10 =? NL) with true. cbn iota. rewrite IH.
    cbn. destruct (m <=? length cs); reflexivity.
  - cbn [simul_loop].
    assert (E : option_map S (simul_loop s m) = if S m <=? length ((x, 1) :: cs) then Some (extent (firstn (S m) ((x, 1) :: cs))) else None).
    { rewrite IH. cbn. destruct (m <=? length cs); reflexivity. }
    destruct (Nat.eqb_spec x CR) as [->|Nx]; cbn [negb]; [|exact E].
    destruct s as [|y s]; [exact E|]. destruct (Nat.eqb_spec y NL) as [->|Ny]; [|exact E].
    exfalso. apply N. split; [reflexivity|exists s; reflexivity].
Qed.

(* ---- encoding ---- *)

Lemma encode_loop_spec : forall data j size, j <= size ->
  let (n, out) := encode_loop data j size in
  n <= length data /\ out = written (firstn n data) /\ j + length out <= size /\
  (n = length data \/ (exists x s, skipn n data = x :: s /\ size < j + length out + length (written [x]))).
Proof.
  induction data as [|ch data IH]; intros j size L; cbn [encode_loop].
  - cbn. split; [lia|]. split; [reflexivity|]. split; [lia|]. auto.
  - destruct (Nat.eqb_spec ch NL) as [->|N]; cbn [negb].
    + destruct (Nat.ltb_spec (size - j) 2) as [G|G].
      * cbn. split; [lia|]. split; [reflexivity|]. split; [lia|]. right. exists NL, data. split; [reflexivity|]. cbn. lia.
      * specialize (IH (S (S j)) size ltac:(lia)). destruct (encode_loop data (S (S j)) size) as [n out].
        destruct IH as (I1 & -> & I3 & I4). split; [cbn; lia|]. split; [reflexivity|]. split; [cbn; lia|].
        destruct I4 as [->|(x & s & E & G2)]; [left; reflexivity|]. right. exists x, s. split; [assumption|]. cbn [length]. lia.
    + assert (W : written [ch] = [ch]) by (unfold written; cbn; rewrite (proj2 (Nat.eqb_neq ch 10) N); reflexivity).
      destruct (Nat.eqb_spec j size) as [->|G].
      * split; [cbn; lia|]. split; [reflexivity|]. split; [cbn; lia|]. right. exists ch, data. split; [reflexivity|]. rewrite W. cbn. lia.
      * specialize (IH (S j) size ltac:(lia)). destruct (encode_loop data (S j) size) as [n out].
        destruct IH as (I1 & -> & I3 & I4). split; [cbn; lia|].
        split; [change (ch :: written (firstn n data) = written ([ch] ++ firstn n data)); unfold written at 2; rewrite flat_map_app;
          fold (written [ch]); rewrite W; reflexivity|].
        split; [cbn; lia|].
        destruct I4 as [->|(x & s & E & G2)]; [left; reflexivity|]. right. exists x, s. split; [assumption|]. cbn [length]. lia.
Qed.

Lemma written_app : forall a b, written (a ++ b) = written a ++ written b.
Proof. intros a b. apply flat_map_app. Qed.

Lemma written_reads : forall s, exists cs, reads (written s) cs /\ map fst cs = s.
Proof.
  induction s as [|x s (cs & R & E)].
  - exists []. split; [constructor|reflexivity].
  - cbn. destruct (Nat.eqb_spec x 10) as [->|N].
    + exists ((10, 2) :: cs). split; [constructor; assumption|cbn; congruence].
    + exists ((x, 1) :: cs). split; [|cbn; congruence]. apply reads_other; [|assumption].
      intros [_ [r W]]. destruct s as [|y s]; [discriminate|]. cbn in W. destruct (Nat.eqb_spec y 10) as [->|Ny]; [discriminate|].
      injection W as W _. auto.
Qed.
