(* The functions of UninitModel, described slot by slot. *)
From Coq Require Import List Arith Lia Bool.
From Verif Require Import ArrLib BufferModel UninitModel UninitProofs.
Import ListNotations.

Lemma nth_error_ext {A} (a b : list A) : (forall i, nth_error a i = nth_error b i) -> a = b.
Proof.
  revert b. induction a as [|x a IH]; intros [|y b] H; [reflexivity|now specialize (H 0)|now specialize (H 0)|].
  pose proof (H 0) as H0. cbn in H0. inversion H0; subst. f_equal. apply IH. intros i. exact (H (S i)).
Qed.

Lemma nth_error_app_if {A} (a b : list A) k :
  nth_error (a ++ b) k = if k <? length a then nth_error a k else nth_error b (k - length a).
Proof.
  destruct (Nat.ltb_spec k (length a)); [now apply nth_error_app1|now apply nth_error_app2].
Qed.

Lemma nth_error_firstn_if {A} (l : list A) n k :
  nth_error (firstn n l) k = if k <? n then nth_error l k else None.
Proof.
  revert n k. induction l as [|x l IH]; intros n k.
  - rewrite firstn_nil. destruct k; now destruct (_ <? _).
  - destruct n; [now destruct k|]. destruct k; [reflexivity|]. cbn [firstn nth_error]. rewrite IH. reflexivity.
Qed.

Lemma nth_error_skipn_add {A} (l : list A) n k : nth_error (skipn n l) k = nth_error l (n + k).
Proof. revert l. induction n as [|n IH]; intros [|x l]; cbn; [reflexivity..|now destruct k|apply IH]. Qed.

Lemma nth_error_repeat_if {A} (x : A) n k : nth_error (repeat x n) k = if k <? n then Some x else None.
Proof.
  revert k. induction n as [|n IH]; intros [|k]; try reflexivity. cbn [repeat nth_error]. rewrite IH. reflexivity.
Qed.

Lemma nth_error_beyond {A} (l : list A) k : length l <= k -> nth_error l k = None.
Proof. apply nth_error_None. Qed.

Lemma nth_error_within {A} (l : list A) k : k < length l -> exists x, nth_error l k = Some x.
Proof. intros H. destruct (nth_error l k) eqn:E; [eauto|]. apply nth_error_None in E. lia. Qed.

Ltac bcases :=
  repeat match goal with
  | |- context [?a <=? ?b] => destruct (Nat.leb_spec a b)
  | |- context [?a <? ?b] => destruct (Nat.ltb_spec a b)
  | |- context [?a =? ?b] => destruct (Nat.eqb_spec a b)
  end; cbn [andb negb orb].
(* the same, dropping impossible cases on the way *)
Ltac bcases' :=
  repeat (match goal with
  | |- context [?a <=? ?b] => destruct (Nat.leb_spec a b)
  | |- context [?a <? ?b] => destruct (Nat.ltb_spec a b)
  | |- context [?a =? ?b] => destruct (Nat.eqb_spec a b)
  end; cbn [andb negb orb]; try (exfalso; lia)).

Section Index.
Context {T : Type}.
Notation mem := (list (option T)).

Definition live_at (m : mem) (p n : nat) : Prop :=
  forall j, p <= j -> j < p + n -> exists x, nth_error m j = Some (Some x).
Definition free_at (m : mem) (p n : nat) : Prop :=
  forall j, p <= j -> j < p + n -> nth_error m j = Some None.

(* j is in [p, p + n) *)
Definition inr (p n j : nat) : bool := (p <=? j) && (j <? p + n).

Lemma inr_true p n j : inr p n j = true <-> p <= j < p + n.
Proof. unfold inr. rewrite andb_true_iff, Nat.leb_le, Nat.ltb_lt. reflexivity. Qed.
Lemma inr_false p n j : inr p n j = false <-> ~ (p <= j < p + n).
Proof. rewrite <- inr_true. destruct (inr p n j); split; congruence. Qed.

Lemma splice (m mid : mem) p n j : length mid = n -> p + n <= length m ->
  nth_error (firstn p m ++ mid ++ skipn (p + n) m) j =
    if inr p n j then nth_error mid (j - p) else nth_error m j.
Proof.
  intros Hn Hl. rewrite nth_error_app_if, firstn_length, nth_error_firstn_if.
  rewrite nth_error_app_if, nth_error_skipn_add. rewrite Hn.
  replace (Nat.min p (length m)) with p by lia. unfold inr.
  bcases; try lia; try reflexivity. f_equal. lia.
Qed.

Lemma splice_length (m mid : mem) p n : length mid = n -> p + n <= length m ->
  length (firstn p m ++ mid ++ skipn (p + n) m) = length m.
Proof. intros Hn Hl. rewrite !app_length, firstn_length, skipn_length. lia. Qed.

Lemma bound_of (m : mem) p n : 0 < n -> (forall j, p <= j -> j < p + n -> nth_error m j <> None) -> p + n <= length m.
Proof.
  intros Hn H. specialize (H (p + n - 1) ltac:(lia) ltac:(lia)). apply nth_error_Some in H. lia.
Qed.

Lemma free_split (m : mem) p n : 0 < n -> free_at m p n ->
  p + n <= length m /\ m = firstn p m ++ repeat None n ++ skipn (p + n) m.
Proof.
  intros Hn H. assert (Hb : p + n <= length m).
  { apply bound_of; [exact Hn|]. intros j H1 H2. rewrite (H j H1 H2). discriminate. }
  split; [exact Hb|]. apply nth_error_ext. intros j. rewrite splice by (rewrite ?repeat_length; lia).
  destruct (inr p n j) eqn:E; [|reflexivity]. apply inr_true in E. rewrite nth_error_repeat_if.
  rewrite H by lia. bcases; [reflexivity|lia].
Qed.

Lemma live_values (m : mem) n : forall p, live_at m p n ->
  exists xs, length xs = n /\ forall k, k < n -> nth_error m (p + k) = Some (nth_error xs k).
Proof.
  induction n as [|n IH]; intros p H; [exists []; split; [reflexivity|lia]|].
  destruct (IH (S p)) as (xs & Hl & Hx). { intros j H1 H2. apply H; lia. }
  destruct (H p) as (x & Hp); [lia|lia|]. exists (x :: xs). split; [cbn; lia|].
  intros [|k] Hk; [rewrite Nat.add_0_r; exact Hp|]. cbn [nth_error]. rewrite <- Hx by lia. f_equal. lia.
Qed.

Lemma live_split (m : mem) p n : 0 < n -> live_at m p n ->
  p + n <= length m /\ exists xs, length xs = n /\ m = firstn p m ++ map Some xs ++ skipn (p + n) m /\
    forall k, k < n -> nth_error m (p + k) = Some (nth_error xs k).
Proof.
  intros Hn H. assert (Hb : p + n <= length m).
  { apply bound_of; [exact Hn|]. intros j H1 H2. destruct (H j H1 H2) as (x & ->). discriminate. }
  split; [exact Hb|]. destruct (live_values m n p H) as (xs & Hl & Hx). exists xs. split; [exact Hl|].
  split; [|exact Hx].
  apply nth_error_ext. intros j. rewrite splice by (rewrite ?map_length; lia).
  destruct (inr p n j) eqn:E; [|reflexivity]. apply inr_true in E. rewrite nth_error_map.
  replace j with (p + (j - p)) at 1 by lia. rewrite Hx by lia.
  destruct (nth_error_within xs (j - p)) as (x & ->); [lia|reflexivity].
Qed.

Lemma create_idx (m : mem) p x : nth_error m p = Some None ->
  exists m', create m p x = Some m' /\ length m' = length m /\
    forall j, nth_error m' j = if j =? p then Some (Some x) else nth_error m j.
Proof.
  intros H. unfold create. rewrite H. rewrite set_nth_some.
  2:{ apply nth_error_Some. congruence. }
  assert (E : set_nth m p (Some x) = Some (firstn p m ++ Some x :: skipn (S p) m)).
  { apply set_nth_some. apply nth_error_Some. congruence. }
  eexists. split; [reflexivity|]. split; [now apply set_nth_length in E|].
  intros j. exact (nth_error_set_nth _ _ _ _ _ E).
Qed.

Lemma kill_idx (m : mem) p x : nth_error m p = Some (Some x) ->
  exists m', kill m p = Some m' /\ length m' = length m /\
    forall j, nth_error m' j = if j =? p then Some None else nth_error m j.
Proof.
  intros H. unfold kill. rewrite H.
  assert (E : set_nth m p None = Some (firstn p m ++ None :: skipn (S p) m)).
  { apply set_nth_some. apply nth_error_Some. congruence. }
  rewrite E. eexists. split; [reflexivity|]. split; [now apply set_nth_length in E|].
  intros j. exact (nth_error_set_nth _ _ _ _ _ E).
Qed.

Lemma inr_0 p j : inr p 0 j = false.
Proof. apply inr_false. lia. Qed.

Lemma destroy_idx (m : mem) p n : live_at m p n ->
  exists m', uninit_destroy m p n = Some m' /\ length m' = length m /\
    forall j, nth_error m' j = if inr p n j then Some None else nth_error m j.
Proof.
  intros H. destruct (Nat.eq_dec n 0) as [->|Hn].
  { exists m. split; [reflexivity|]. split; [reflexivity|]. intros j. now rewrite inr_0. }
  destruct (live_split m p n ltac:(lia) H) as (Hb & xs & Hl & Hm & _).
  assert (E0 : uninit_destroy m p n = Some (firstn p m ++ repeat None n ++ skipn (p + n) m))
    by (rewrite Hm at 1; apply destroy_mid; rewrite ?firstn_length; lia).
  rewrite E0. eexists. split; [reflexivity|]. split; [apply splice_length; rewrite ?repeat_length; lia|].
  intros j. rewrite splice by (rewrite ?repeat_length; lia).
  destruct (inr p n j) eqn:E; [|reflexivity]. apply inr_true in E. rewrite nth_error_repeat_if.
  bcases; [reflexivity|lia].
Qed.

Lemma fill_idx (m : mem) p n make : free_at m p n ->
  (exists m' xs, uninit_safe_fill m n make p = Done m' /\ seq_all (map make (seq 0 n)) = Some xs /\
     length m' = length m /\
     forall j, nth_error m' j = if inr p n j then Some (nth_error xs (j - p)) else nth_error m j) \/
  (uninit_safe_fill m n make p = Throw m /\ seq_all (map make (seq 0 n)) = None).
Proof.
  intros H. destruct (Nat.eq_dec n 0) as [->|Hn].
  { left. exists m, []. split; [reflexivity|]. split; [reflexivity|]. split; [reflexivity|].
    intros j. now rewrite inr_0. }
  destruct (free_split m p n ltac:(lia) H) as (Hb & Hm). 
  pose proof (fill_mid n (firstn p m) (skipn (p + n) m) make p ltac:(rewrite firstn_length; lia)) as E0.
  rewrite <- Hm in E0. rewrite E0. clear E0.
  destruct (seq_all (map make (seq 0 n))) as [xs|] eqn:E.
  - assert (length xs = n) by (apply seq_all_length in E; rewrite map_length, seq_length in E; lia).
    left. eexists _, xs. split; [reflexivity|]. split; [reflexivity|].
    split; [apply splice_length; rewrite ?map_length; lia|].
    intros j. rewrite splice by (rewrite ?map_length; lia).
    destruct (inr p n j) eqn:Ei; [|reflexivity]. apply inr_true in Ei. rewrite nth_error_map.
    destruct (nth_error_within xs (j - p)) as (x & ->); [lia|reflexivity].
  - right. split; reflexivity.
Qed.

Lemma copy_idx (m : mem) p src : free_at m p (length src) ->
  (exists m' xs, uninit_safe_copy m src p = Done m' /\ seq_all src = Some xs /\
     length m' = length m /\
     forall j, nth_error m' j = if inr p (length src) j then Some (nth_error xs (j - p)) else nth_error m j) \/
  (uninit_safe_copy m src p = Throw m /\ seq_all src = None).
Proof.
  intros H. destruct src as [|s src'].
  { left. exists m, []. split; [reflexivity|]. split; [reflexivity|]. split; [reflexivity|].
    intros j. now rewrite inr_0. }
  set (src := s :: src') in *. assert (Hn : 0 < length src) by (cbn; lia). clearbody src.
  destruct (free_split m p _ Hn H) as (Hb & Hm). 
  pose proof (copy_mid src (firstn p m) (skipn (p + length src) m) p ltac:(rewrite firstn_length; lia)) as E0.
  rewrite <- Hm in E0. rewrite E0. clear E0.
  destruct (seq_all src) as [xs|] eqn:E.
  - assert (length xs = length src) by (apply seq_all_length in E; lia).
    left. eexists _, xs. split; [reflexivity|]. split; [reflexivity|].
    split; [apply splice_length; rewrite ?map_length; lia|].
    intros j. rewrite splice by (rewrite ?map_length; lia).
    destruct (inr p (length src) j) eqn:Ei; [|reflexivity]. apply inr_true in Ei. rewrite nth_error_map.
    destruct (nth_error_within xs (j - p)) as (x & ->); [lia|reflexivity].
  - right. split; reflexivity.
Qed.

Lemma move_idx n : forall (m m2 : mem) p q, live_at m p n -> free_at m2 q n ->
  exists m' m2', uninit_safe_move m p n m2 q = Some (m', m2') /\ length m' = length m /\ length m2' = length m2 /\
    (forall j, nth_error m' j = if inr p n j then Some None else nth_error m j) /\
    (forall j, nth_error m2' j = if inr q n j then nth_error m (j - q + p) else nth_error m2 j).
Proof.
  induction n as [|n IH]; intros m m2 p q Hm Hm2.
  { exists m, m2. repeat (split; [reflexivity|]). split; intros j; now rewrite inr_0. }
  cbn [uninit_safe_move]. destruct (Hm p) as (x & Hx); [lia|lia|].
  unfold fetch. rewrite Hx. cbn [obind].
  destruct (create_idx m2 q x) as (m2a & -> & Hl2 & Ha2); [apply Hm2; lia|]. cbn [obind].
  destruct (kill_idx m p x Hx) as (ma & -> & Hl & Ha). cbn [obind].
  destruct (IH ma m2a (S p) (S q)) as (m' & m2' & -> & L1 & L2 & I1 & I2).
  - intros j H1 H2. rewrite Ha. bcases; [lia|]. apply Hm; lia.
  - intros j H1 H2. rewrite Ha2. bcases; [lia|]. apply Hm2; lia.
  - exists m', m2'. split; [reflexivity|]. split; [lia|]. split; [lia|]. split; intros j.
    + rewrite I1, Ha. unfold inr. bcases; try lia; reflexivity.
    + rewrite I2, Ha2, Ha. unfold inr. bcases; try lia; try reflexivity.
      * f_equal. lia.
      * subst. rewrite Nat.sub_diag. cbn. now rewrite Hx.
Qed.

Lemma move_a_idx n : forall (m m2 : mem) p q, live_at m p n -> free_at m2 q n ->
  exists m2', uninit_safe_move_a m p n m2 q = Some m2' /\ length m2' = length m2 /\
    (forall j, nth_error m2' j = if inr q n j then nth_error m (j - q + p) else nth_error m2 j).
Proof.
  induction n as [|n IH]; intros m m2 p q Hm Hm2.
  { exists m2. repeat (split; [reflexivity|]). intros j; now rewrite inr_0. }
  cbn [uninit_safe_move_a]. destruct (Hm p) as (x & Hx); [lia|lia|].
  unfold fetch. rewrite Hx. cbn [obind].
  destruct (create_idx m2 q x) as (m2a & -> & Hl2 & Ha2); [apply Hm2; lia|]. cbn [obind].
  destruct (IH m m2a (S p) (S q)) as (m2' & -> & L2 & I2).
  - intros j H1 H2. apply Hm; lia.
  - intros j H1 H2. rewrite Ha2. bcases; [lia|]. apply Hm2; lia.
  - exists m2'. split; [reflexivity|]. split; [lia|]. intros j.
    rewrite I2, Ha2. unfold inr. bcases; try lia; try reflexivity.
    + f_equal. lia.
    + subst. rewrite Nat.sub_diag. cbn. now rewrite Hx.
Qed.

(* a move between two places of one memory block that do not overlap *)
Lemma move_in_idx n : forall (m : mem) p q, live_at m p n -> free_at m q n ->
  exists m', move_down_loop m p q n = Some m' /\ length m' = length m /\
    (forall j, nth_error m' j = if inr p n j then Some None
                                else if inr q n j then nth_error m (j - q + p) else nth_error m j).
Proof.
  induction n as [|n IH]; intros m p q Hm Hm2.
  { exists m. repeat (split; [reflexivity|]). intros j; now rewrite !inr_0. }
  cbn [move_down_loop]. destruct (Hm p) as (x & Hx); [lia|lia|].
  assert (D : forall j, p <= j -> j < p + S n -> q <= j -> j < q + S n -> False).
  { intros j H1 H2 H3 H4. destruct (Hm j H1 H2) as (y & Hy). rewrite (Hm2 j H3 H4) in Hy. discriminate. }
  unfold fetch. rewrite Hx. cbn [obind].
  destruct (create_idx m q x) as (ma & -> & Hla & Ha); [apply Hm2; lia|]. cbn [obind].
  assert (p <> q) by (intros ->; apply (D q); lia).
  destruct (kill_idx ma p x) as (mb & -> & Hlb & Hb). { rewrite Ha. bcases; [lia|exact Hx]. } cbn [obind].
  destruct (IH mb (S p) (S q)) as (m' & -> & L & I).
  - intros j H1 H2. rewrite Hb, Ha. bcases; [lia| |apply Hm; lia]. exfalso. apply (D j); lia.
  - intros j H1 H2. rewrite Hb, Ha. bcases; [reflexivity|lia|]. apply Hm2; lia.
  - exists m'. split; [reflexivity|]. split; [lia|]. intros j.
    assert (Hq : nth_error m (j - q + p) = nth_error m p \/ j <> q).
    { destruct (Nat.eq_dec j q) as [->|]; [left; f_equal; lia|now right]. }
    rewrite I, !Hb, !Ha. unfold inr. bcases'; try reflexivity; try (exfalso; apply (D j); lia).
    all: try (f_equal; lia).
    all: try (destruct Hq as [Hq|Hq]; [now rewrite Hq, Hx|lia]).
    all: exfalso; apply (D (S (j - S q + p)) ltac:(lia) ltac:(lia)); lia.
Qed.

Lemma move_down_idx (m : mem) p n d : 0 < d <= p -> 0 < n -> free_at m (p - d) d -> live_at m p n ->
  exists m', uninit_move_downwards m p n d = Some m' /\ length m' = length m /\
    (forall j, nth_error m' j = if inr (p - d) n j then nth_error m (j + d)
                                else if inr (p - d + n) d j then Some None else nth_error m j).
Proof.
  intros Hd Hn Hf Hlv. destruct (free_split m (p - d) d ltac:(lia) Hf) as (Hb1 & Hm1).
  destruct (live_split m p n Hn Hlv) as (Hb2 & xs & Hl & Hm2 & Hx).
  assert (Hm : m = firstn (p - d) m ++ repeat None d ++ map Some xs ++ skipn (p + n) m).
  { rewrite Hm2 at 1. rewrite (app_assoc _ (repeat None d)). f_equal.
    rewrite Hm1 at 1. replace (p - d + d) with p by lia. rewrite firstn_app, !firstn_length.
    replace (Nat.min (p - d) (length m)) with (p - d) by lia. rewrite firstn_firstn.
    replace (Nat.min p (p - d)) with (p - d) by lia. f_equal.
    rewrite firstn_app, repeat_length. replace (p - (p - d) - d) with 0 by lia. cbn [firstn].
    rewrite app_nil_r. apply firstn_all2. rewrite repeat_length. lia. }
  pose proof (move_down_mid xs (firstn (p - d) m) (skipn (p + n) m) d p n ltac:(lia)
    ltac:(rewrite firstn_length; lia) ltac:(lia)) as E0.
  rewrite <- Hm in E0. rewrite E0. clear E0.
  eexists. split; [reflexivity|].
  split. { rewrite !app_length, firstn_length, map_length, repeat_length, skipn_length. lia. }
  intros j. rewrite !nth_error_app_if, firstn_length, map_length, repeat_length, nth_error_firstn_if.
  rewrite nth_error_map, nth_error_repeat_if, nth_error_skipn_add.
  replace (Nat.min (p - d) (length m)) with (p - d) by lia. unfold inr.
  bcases'; try reflexivity; try (f_equal; lia).
  replace (j + d) with (p + (j - (p - d))) by lia. rewrite Hx by lia.
  destruct (nth_error_within xs (j - (p - d))) as (x & ->); [lia|reflexivity].
Qed.

Lemma move_down_0 (m : mem) p d : uninit_move_downwards m p 0 d = Some m.
Proof. reflexivity. Qed.

Lemma move_up_idx (m : mem) p n d : 0 < d -> 0 < n -> live_at m p n -> free_at m (p + n) d ->
  exists m', uninit_move_upwards m p n d = Some m' /\ length m' = length m /\
    (forall j, nth_error m' j = if inr p d j then Some None
                                else if inr (p + d) n j then nth_error m (j - d) else nth_error m j).
Proof.
  intros Hd Hn Hlv Hf. destruct (free_split m (p + n) d ltac:(lia) Hf) as (Hb1 & Hm1).
  destruct (live_split m p n Hn Hlv) as (Hb2 & xs & Hl & Hm2 & Hx).
  assert (Hm : m = firstn p m ++ map Some xs ++ repeat None d ++ skipn (p + n + d) m).
  { rewrite Hm2 at 1. do 2 f_equal. rewrite Hm1 at 1. rewrite skipn_app, firstn_length.
    replace (p + n - _) with 0 by lia. cbn [skipn].
    rewrite skipn_all2 by (rewrite firstn_length; lia). reflexivity. }
  pose proof (move_up_mid xs (firstn p m) (skipn (p + n + d) m) d p n ltac:(lia)
    ltac:(rewrite firstn_length; lia) ltac:(lia)) as E0.
  rewrite <- Hm in E0. rewrite E0. clear E0.
  eexists. split; [reflexivity|].
  split. { rewrite !app_length, firstn_length, map_length, repeat_length, skipn_length. lia. }
  intros j. rewrite !nth_error_app_if, firstn_length, map_length, repeat_length, nth_error_firstn_if.
  rewrite nth_error_map, nth_error_repeat_if, nth_error_skipn_add.
  replace (Nat.min p (length m)) with p by lia. unfold inr.
  bcases'; try reflexivity; try (f_equal; lia).
  replace (j - d) with (p + (j - d - p)) by lia. rewrite Hx by lia. replace (j - p - d) with (j - d - p) by lia.
  destruct (nth_error_within xs (j - d - p)) as (x & ->); [lia|reflexivity].
Qed.

Lemma move_up_0 (m : mem) p d : uninit_move_upwards m p 0 d = Some m.
Proof. reflexivity. Qed.

Lemma all_free_idx (m : mem) : (forall j, j < length m -> nth_error m j = Some None) -> all_free m = true.
Proof.
  intros H. unfold all_free. apply forallb_forall. intros s Hs. apply In_nth_error in Hs. destruct Hs as (j & Hj).
  rewrite H in Hj by (apply nth_error_Some; congruence). now inversion Hj.
Qed.

Lemma all_free_inv (m : mem) j : all_free m = true -> j < length m -> nth_error m j = Some None.
Proof.
  intros H Hj. destruct (nth_error_within m j Hj) as (s & Hs). rewrite Hs. unfold all_free in H.
  rewrite forallb_forall in H. specialize (H s (nth_error_In _ _ Hs)). now destruct s.
Qed.

End Index.
