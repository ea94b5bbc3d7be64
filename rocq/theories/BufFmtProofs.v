(* Lemmas on numbers, sequences and byte order *)
From Coq Require Import ZArith Bool List Lia Permutation.
From Verif Require Import CInt IntModel PixelBoxModel BufFmtModel BufFmtSpec.
From Verif Require Import ArrLib.
Import ListNotations.
Open Scope Z_scope.

Lemma nth_map_in {A B} (f : A -> B) l k d d' : (k < length l)%nat -> nth k (map f l) d = f (nth k l d').
Proof. intros H. rewrite (nth_indep _ d (f d')) by (rewrite map_length; exact H). apply map_nth. Qed.

(* numbers *)
Lemma number_app b l1 l2 : number b (l1 ++ l2) = number b l1 + b ^ Z.of_nat (length l1) * number b l2.
Proof.
  induction l1 as [|d l IH]; [cbn [app length]; change (Z.of_nat 0) with 0; rewrite Z.pow_0_r; change (number b []) with 0; lia|].
  cbn [app number fold_right length] in *. fold (number b (l ++ l2)). fold (number b l). rewrite IH.
  rewrite Nat2Z.inj_succ, Z.pow_succ_r by lia. ring.
Qed.

Definition digits_ok (b : Z) (l : list Z) : Prop := forall d, In d l -> 0 <= d < b.

Lemma number_bound b l : 0 < b -> digits_ok b l -> 0 <= number b l < b ^ Z.of_nat (length l).
Proof.
  intros Hb. induction l as [|d l IH]; intros H; [cbn; lia|].
  cbn [number fold_right length]. fold (number b l). rewrite Nat2Z.inj_succ, Z.pow_succ_r by lia.
  assert (0 <= d < b) by (apply H; now left). assert (0 <= number b l < b ^ Z.of_nat (length l)) by (apply IH; intros e He; apply H; now right). nia.
Qed.

Lemma number_concat b B ls : (forall l, In l ls -> length l = B) ->
  number (b ^ Z.of_nat B) (map (number b) ls) = number b (concat ls).
Proof.
  induction ls as [|l ls IH]; intros H; [reflexivity|].
  cbn [map concat]. rewrite number_app. cbn [number fold_right]. fold (number (b ^ Z.of_nat B) (map (number b) ls)).
  rewrite IH by (intros l' Hl; apply H; now right). rewrite (H l) by now left. reflexivity.
Qed.

Lemma number_digit b l q : 0 < b -> digits_ok b l -> (q < length l)%nat ->
  (number b l / b ^ Z.of_nat q) mod b = nth q l 0.
Proof.
  intros Hb. revert q. induction l as [|d l IH]; intros q H Hq; [cbn in Hq; lia|].
  cbn [number fold_right]. fold (number b l). assert (Hd : 0 <= d < b) by (apply H; now left).
  destruct q as [|q]; cbn [nth].
  - rewrite Z.pow_0_r, Z.div_1_r. rewrite (Z.mul_comm b), Z_mod_plus_full. apply Z.mod_small; lia.
  - rewrite Nat2Z.inj_succ, Z.pow_succ_r by lia. rewrite <- Z.div_div by lia.
    replace ((d + b * number b l) / b) with (number b l)
      by (rewrite (Z.mul_comm b), Z.div_add, Z.div_small by lia; lia).
    apply IH; [intros e He; apply H; now right|cbn in Hq; lia].
Qed.

Lemma assemble_single e b d : assemble e b [d] = d.
Proof. destruct e; cbn; lia. Qed.

Lemma rev_concat {A} (ls : list (list A)) : rev (concat ls) = concat (map (@rev A) (rev ls)).
Proof.
  induction ls as [|l ls IH]; [reflexivity|]. cbn [concat rev]. rewrite rev_app_distr, IH, map_app, concat_app.
  cbn [map concat]. now rewrite app_nil_r.
Qed.

Lemma assemble_concat e b B ls : (forall l, In l ls -> length l = B) ->
  assemble e (b ^ Z.of_nat B) (map (assemble e b) ls) = assemble e b (concat ls).
Proof.
  intros H. destruct e; unfold assemble.
  - rewrite <- map_rev. rewrite <- (map_map (@rev Z) (number b)). rewrite (number_concat b B).
    + now rewrite rev_concat.
    + intros l Hl. apply in_map_iff in Hl. destruct Hl as (l' & <- & Hl). rewrite rev_length. apply H. now apply in_rev.
  - now apply number_concat.
Qed.

Lemma digits_rev b l : digits_ok b l -> digits_ok b (rev l).
Proof. intros H d Hd. apply H. now apply in_rev. Qed.

Lemma assemble_bound e b l : 0 < b -> digits_ok b l -> 0 <= assemble e b l < b ^ Z.of_nat (length l).
Proof.
  intros Hb H. destruct e; unfold assemble; [rewrite <- (rev_length l)|]; apply number_bound; auto using digits_rev.
Qed.

(* the position of a digit in order of significance *)
Definition signif (e : endian) (n q : Z) : Z := match e with Little => q | Big => n - 1 - q end.

Lemma assemble_digit e b l q : 0 < b -> digits_ok b l -> 0 <= q < Z.of_nat (length l) ->
  (assemble e b l / b ^ signif e (Z.of_nat (length l)) q) mod b = nth (Z.to_nat q) l 0.
Proof.
  intros Hb H Hq. destruct e; unfold assemble, signif.
  - pose proof (number_digit b (rev l) (Z.to_nat (Z.of_nat (length l) - 1 - q)) Hb (digits_rev b l H)) as E.
    rewrite rev_length in E. rewrite rev_nth in E by lia.
    replace (length l - S (Z.to_nat (Z.of_nat (length l) - 1 - q)))%nat with (Z.to_nat q) in E by lia.
    rewrite <- E by lia. do 3 f_equal. lia.
  - pose proof (number_digit b l (Z.to_nat q) Hb H) as E. rewrite <- E by lia. do 3 f_equal. lia.
Qed.

(* sequences *)
Lemma sequence_length {A} n (f : Z -> A) : 0 <= n -> Z.of_nat (length (sequence n f)) = n.
Proof. intros. unfold sequence. rewrite map_length, seq_length. lia. Qed.

Lemma sequence_ext {A} n (f g : Z -> A) : (forall i, 0 <= i < n -> f i = g i) -> sequence n f = sequence n g.
Proof. intros H. apply map_ext_in. intros i Hi. apply in_seq in Hi. apply H. lia. Qed.

Lemma sequence_in {A} n (f : Z -> A) v : In v (sequence n f) <-> exists i, 0 <= i < n /\ v = f i.
Proof.
  unfold sequence. rewrite in_map_iff. split.
  - intros (i & <- & Hi). apply in_seq in Hi. exists (Z.of_nat i). split; [lia|reflexivity].
  - intros (i & Hi & ->). exists (Z.to_nat i). split; [f_equal; lia|]. apply in_seq. lia.
Qed.

Lemma sequence_map {A B} n (f : Z -> A) (g : A -> B) : map g (sequence n f) = sequence n (fun i => g (f i)).
Proof. unfold sequence. now rewrite map_map. Qed.

Lemma sequence_nth {A} n (f : Z -> A) i d : 0 <= i < n -> nth (Z.to_nat i) (sequence n f) d = f i.
Proof.
  intros H. unfold sequence. rewrite (nth_indep _ d (f (Z.of_nat 0))) by (rewrite map_length, seq_length; lia).
  rewrite (map_nth (fun i => f (Z.of_nat i))). rewrite seq_nth by lia. f_equal. lia.
Qed.

Lemma sequence_single {A} (f : Z -> A) : sequence 1 f = [f 0].
Proof. reflexivity. Qed.

Lemma sequence_add {A} a b (f : Z -> A) : 0 <= a -> 0 <= b ->
  sequence (a + b) f = sequence a f ++ sequence b (fun j => f (a + j)).
Proof.
  intros Ha Hb. unfold sequence. rewrite Z2Nat.inj_add by lia. rewrite seq_app, map_app. f_equal.
  cbn [plus]. rewrite <- (Nat.add_0_r (Z.to_nat a)) at 1. generalize 0%nat as k. 
  induction (Z.to_nat b) as [|n IH]; intros k; [reflexivity|]. cbn [seq map]. f_equal; [f_equal; lia|].
  rewrite <- IH. f_equal. f_equal. lia.
Qed.

Lemma sequence_concat {A} a b (f : Z -> A) : 0 <= a -> 0 <= b ->
  sequence (a * b) f = concat (sequence a (fun i => sequence b (fun j => f (i * b + j)))).
Proof.
  intros Ha Hb. revert f. pattern a. apply natlike_ind; [|clear a Ha|assumption].
  - intros f. now rewrite Z.mul_0_l.
  - intros a Ha IH f. replace (Z.succ a * b) with (a * b + b) by lia. rewrite sequence_add by nia.
    replace (Z.succ a) with (a + 1) by lia. rewrite (sequence_add a 1) by lia. rewrite concat_app.
    rewrite <- IH. rewrite sequence_single. cbn [concat]. rewrite app_nil_r. f_equal.
    apply sequence_ext. intros i Hi. f_equal. lia.
Qed.

Lemma sequence_digits b n f : (forall i, 0 <= i < n -> 0 <= f i < b) -> digits_ok b (sequence n f).
Proof. intros H d Hd. apply sequence_in in Hd. destruct Hd as (i & Hi & ->). auto. Qed.

Lemma assemble_nested e b a B (f : Z -> Z) : 0 <= a -> 0 <= B ->
  assemble e (b ^ B) (sequence a (fun i => assemble e b (sequence B (fun j => f (i * B + j))))) =
  assemble e b (sequence (a * B) f).
Proof.
  intros Ha HB. rewrite sequence_concat by assumption.
  rewrite <- (sequence_map a (fun i => sequence B (fun j => f (i * B + j))) (assemble e b)).
  rewrite <- (assemble_concat e b (Z.to_nat B)); [now rewrite Z2Nat.id|].
  intros l Hl. apply sequence_in in Hl. destruct Hl as (i & _ & ->).
  pose proof (sequence_length B (fun j => f (i * B + j)) HB). lia.
Qed.

(* bits *)
Lemma bits_at_low pos n k v : 0 <= pos -> 0 <= n -> pos + n <= k -> bits_at pos n (low_bits k v) = bits_at pos n v.
Proof.
  intros Hp Hn Hk. unfold bits_at, low_bits.
  replace (2 ^ k) with (2 ^ pos * 2 ^ (k - pos)) by (rewrite <- Z.pow_add_r by lia; f_equal; lia).
  rewrite Z.rem_mul_r by (try apply Z.pow_nonzero; try apply Z.pow_pos_nonneg; lia).
  rewrite (Z.mul_comm (2 ^ pos)), Z.div_add by (apply Z.pow_nonzero; lia).
  rewrite (Z.div_small (v mod 2 ^ pos)) by (apply Z.mod_pos_bound; apply Z.pow_pos_nonneg; lia). cbn [Z.add].
  replace (2 ^ (k - pos)) with (2 ^ n * 2 ^ (k - pos - n)) by (rewrite <- Z.pow_add_r by lia; f_equal; lia).
  rewrite Z.rem_mul_r by (try apply Z.pow_nonzero; try apply Z.pow_pos_nonneg; lia).
  rewrite (Z.mul_comm (2 ^ n)), Z_mod_plus_full. apply Z.mod_mod. apply Z.pow_nonzero; lia.
Qed.

Lemma bits_at_split a pos n v : 0 <= a -> 0 <= pos -> bits_at (a + pos) n v = bits_at pos n (v / 2 ^ a).
Proof.
  intros Ha Hp. unfold bits_at. rewrite Z.pow_add_r by lia. rewrite Z.div_div; [reflexivity| |].
  - apply Z.pow_nonzero; lia.
  - apply Z.pow_pos_nonneg; lia.
Qed.

Lemma bits_at_0 n v : bits_at 0 n v = low_bits n v.
Proof. unfold bits_at, low_bits. now rewrite Z.pow_0_r, Z.div_1_r. Qed.

Lemma low_bits_small n v : 0 <= v < 2 ^ n -> low_bits n v = v.
Proof. intros. now apply Z.mod_small. Qed.

Lemma low_bits_bound n v : 0 <= n -> 0 <= low_bits n v < 2 ^ n.
Proof. intros. apply Z.mod_pos_bound. apply Z.pow_pos_nonneg; lia. Qed.

(* bits of a digit of a number *)
Lemma bits_of_digit e p l q pos n : 0 <= p -> digits_ok (2 ^ p) l -> 0 <= q < Z.of_nat (length l) ->
  0 <= pos -> 0 <= n -> pos + n <= p ->
  bits_at (signif e (Z.of_nat (length l)) q * p + pos) n (assemble e (2 ^ p) l) = bits_at pos n (nth (Z.to_nat q) l 0).
Proof.
  intros Hp H Hq Hpos Hn Hpn.
  assert (0 <= signif e (Z.of_nat (length l)) q) by (destruct e; cbn [signif]; lia).
  rewrite bits_at_split by nia. rewrite <- (bits_at_low pos n p) by lia. f_equal. unfold low_bits.
  rewrite <- (assemble_digit e (2 ^ p) l q) by (try assumption; apply Z.pow_pos_nonneg; lia).
  rewrite <- Z.pow_mul_r by lia. do 3 f_equal. lia.
Qed.

(* byte order *)
Lemma pow256 j : 0 <= j -> 256 ^ j = 2 ^ (j * 8).
Proof. intros. change 256 with (2 ^ 8). rewrite <- Z.pow_mul_r by lia. f_equal. lia. Qed.

Lemma hot_digit i j : (2 ^ (Z.of_nat i * 8) / 256 ^ Z.of_nat j) mod 256 = 1 <-> i = j.
Proof.
  rewrite pow256 by lia. destruct (Nat.lt_trichotomy i j) as [H|[->|H]].
  - rewrite Z.div_small; [rewrite Z.mod_0_l by lia; lia|]. split; [apply Z.pow_nonneg; lia|]. apply Z.pow_lt_mono_r; lia.
  - rewrite Z.div_same by (apply Z.pow_nonzero; lia). split; [reflexivity|intros _; reflexivity].
  - replace (Z.of_nat i * 8) with (8 * Z.of_nat (i - j - 1) + 8 + Z.of_nat j * 8) by lia.
    rewrite Z.pow_add_r by lia. rewrite Z.div_mul by (apply Z.pow_nonzero; lia).
    rewrite Z.pow_add_r by lia. change (2 ^ 8) with 256. rewrite Z.mod_mul by lia. lia.
Qed.

Section Order.
Variable (pf : platform) (t : itype).
Hypothesis Hnd : NoDup (perm pf t).
Hypothesis Hlen : length (perm pf t) = nbytes pf t.
Hypothesis Hlt : forall q, In q (perm pf t) -> (q < nbytes pf t)%nat.

Lemma byte_at_hot i q : (i < nbytes pf t)%nat ->
  byte_at pf t (2 ^ (Z.of_nat i * 8)) q = 1 <-> nth i (perm pf t) 0%nat = q.
Proof.
  intros Hi. unfold byte_at.
  destruct (find (fun j => Nat.eqb (nth j (perm pf t) 0%nat) q) (seq 0 (nbytes pf t))) as [j|] eqn:E.
  - apply find_some in E. destruct E as [Hj E]. apply in_seq in Hj. apply Nat.eqb_eq in E. rewrite hot_digit. split.
    + intros ->. exact E.
    + intros E'. apply (proj1 (NoDup_nth (perm pf t) 0%nat) Hnd); [lia|lia|congruence].
  - split; [lia|]. intros E'. exfalso. pose proof (find_none _ _ E i ltac:(apply in_seq; lia)) as F. cbn beta in F. apply Nat.eqb_neq in F. contradiction.
Qed.

Definition wanted (e : endian) (i : nat) : nat := match e with Big => (nbytes pf t - 1 - i)%nat | Little => i end.

Lemma check_order_ok e fuel : forall i, (i < nbytes pf t)%nat -> (nbytes pf t - i <= fuel)%nat ->
  (check_order fuel pf t e i = Some (Some e) /\ forall k, (i <= k < nbytes pf t)%nat -> nth k (perm pf t) 0%nat = wanted e k) \/
  (check_order fuel pf t e i = Some None /\ exists k, (i <= k < nbytes pf t)%nat /\ nth k (perm pf t) 0%nat <> wanted e k).
Proof.
  induction fuel as [|fuel IH]; intros i Hi Hf; [lia|]. cbn [check_order]. fold (wanted e i).
  destruct (byte_at pf t (2 ^ (Z.of_nat i * 8)) (wanted e i) =? 1) eqn:E.
  - apply Z.eqb_eq, byte_at_hot in E; [|assumption]. destruct (Nat.ltb (S i) (nbytes pf t)) eqn:El.
    + apply Nat.ltb_lt in El. destruct (IH (S i)) as [[R H]|[R (k & Hk & H)]]; try lia.
      * left. split; [exact R|]. intros k Hk. destruct (Nat.eq_dec k i) as [->|]; [exact E|apply H; lia].
      * right. split; [exact R|]. exists k. split; [lia|exact H].
    + apply Nat.ltb_ge in El. left. split; [reflexivity|]. intros k Hk. replace k with i by lia. exact E.
  - right. split; [reflexivity|]. exists i. split; [lia|]. intros E'. apply byte_at_hot in E'; [|assumption]. lia.
Qed.

Lemma core_byte_order_ok : (2 <= nbytes pf t)%nat ->
  exists r, core_byte_order pf t = Some r /\
    forall e, r = Some e <-> nbits pf t = 8 * Z.of_nat (nbytes pf t) /\
      forall k, (k < nbytes pf t)%nat -> nth k (perm pf t) 0%nat = wanted e k.
Proof.
  intros Hn. unfold core_byte_order. replace (Nat.eqb (nbytes pf t) 1) with false by (symmetry; apply Nat.eqb_neq; lia).
  destruct (nbits pf t =? Z.of_nat (nbytes pf t) * 8) eqn:Eb.
  2:{ exists None. split; [reflexivity|]. intros e. split; [discriminate|]. intros [H _]. lia. }
  assert (Hb : nbits pf t = 8 * Z.of_nat (nbytes pf t)) by lia.
  assert (H1 : forall q, byte_at pf t 1 q = 1 <-> nth 0 (perm pf t) 0%nat = q).
  { intros q. change 1 with (2 ^ (Z.of_nat 0 * 8)) at 1. apply byte_at_hot. lia. }
  destruct (byte_at pf t 1 (nbytes pf t - 1) =? 1) eqn:E1.
  - apply Z.eqb_eq, H1 in E1. destruct (check_order_ok Big (S (nbytes pf t)) 1) as [[R H]|[R (k & Hk & H)]]; try lia; rewrite R.
    + exists (Some Big). split; [reflexivity|]. intros e. split.
      * intros E. injection E as <-. split; [exact Hb|]. intros k Hk. destruct k as [|k]; [cbn [wanted]; lia|apply H; lia].
      * intros [_ Hw]. destruct e; [reflexivity|]. specialize (Hw 0%nat ltac:(lia)). cbn [wanted] in Hw. lia.
    + exists None. split; [reflexivity|]. intros e. split; [discriminate|]. intros [_ Hw]. exfalso. destruct e.
      * apply H, Hw. lia.
      * specialize (Hw 0%nat ltac:(lia)). cbn [wanted] in Hw. lia.
  - destruct (byte_at pf t 1 0 =? 1) eqn:E0.
    + apply Z.eqb_eq, H1 in E0. destruct (check_order_ok Little (S (nbytes pf t)) 1) as [[R H]|[R (k & Hk & H)]]; try lia; rewrite R.
      * exists (Some Little). split; [reflexivity|]. intros e. split.
        -- intros E. injection E as <-. split; [exact Hb|]. intros k Hk. destruct k as [|k]; [exact E0|apply H; lia].
        -- intros [_ Hw]. destruct e; [|reflexivity]. specialize (Hw 0%nat ltac:(lia)). cbn [wanted] in Hw. lia.
      * exists None. split; [reflexivity|]. intros e. split; [discriminate|]. intros [_ Hw]. exfalso. destruct e.
        -- specialize (Hw 0%nat ltac:(lia)). cbn [wanted] in Hw. lia.
        -- apply H, Hw. lia.
    + exists None. split; [reflexivity|]. intros e. split; [discriminate|]. intros [_ Hw]. exfalso.
      specialize (Hw 0%nat ltac:(lia)). destruct e; cbn [wanted] in Hw; apply H1 in Hw.
      * replace (nbytes pf t - 1 - 0)%nat with (nbytes pf t - 1)%nat in Hw by lia. lia.
      * lia.
Qed.

Lemma map_nth_seq (l : list Z) : map (fun q => nth q l 0) (seq 0 (length l)) = l.
Proof.
  apply (nth_ext _ _ 0 0); [now rewrite map_length, seq_length|]. intros k Hk. rewrite map_length, seq_length in Hk.
  rewrite (nth_indep _ 0 ((fun q => nth q l 0) 0%nat)) by (rewrite map_length, seq_length; lia).
  rewrite (map_nth (fun q => nth q l 0)). now rewrite seq_nth by lia.
Qed.

Lemma perm_seq e : (forall k, (k < nbytes pf t)%nat -> nth k (perm pf t) 0%nat = wanted e k) ->
  forall bytes, length bytes = nbytes pf t ->
  map (fun q => nth q bytes 0) (perm pf t) = match e with Little => bytes | Big => rev bytes end.
Proof.
  intros H bytes Hb. apply (nth_ext _ _ 0 0).
  - rewrite map_length, Hlen. destruct e; [rewrite rev_length|]; lia.
  - intros k Hk. rewrite map_length, Hlen in Hk.
    rewrite (nth_indep _ 0 ((fun q => nth q bytes 0) 0%nat)) by (rewrite map_length; lia).
    rewrite (map_nth (fun q => nth q bytes 0)). rewrite H by assumption. destruct e; cbn [wanted]; [|reflexivity].
    rewrite rev_nth by lia. f_equal. lia.
Qed.

(* a list of bytes with a single one *)
Definition hot (q : nat) : list Z := map (fun j => if Nat.eqb j q then 1 else 0) (seq 0 (nbytes pf t)).

Lemma hot_nth q j : (q < nbytes pf t)%nat -> nth j (hot q) 0 = if Nat.eqb j q then 1 else 0.
Proof.
  intros Hq. unfold hot. destruct (Nat.lt_ge_cases j (nbytes pf t)) as [H|H].
  - rewrite (nth_indep _ 0 ((fun j => if Nat.eqb j q then 1 else 0) 0%nat)) by (rewrite map_length, seq_length; lia).
    rewrite (map_nth (fun j => if Nat.eqb j q then 1 else 0)). now rewrite seq_nth by lia.
  - rewrite nth_overflow by (rewrite map_length, seq_length; lia). replace (Nat.eqb j q) with false; [reflexivity|].
    symmetry. apply Nat.eqb_neq. lia.
Qed.

Lemma hot_digits q : (q < nbytes pf t)%nat -> digits_ok 256 (hot q) /\ length (hot q) = nbytes pf t.
Proof.
  intros Hq. split.
  - intros d Hd. apply in_map_iff in Hd. destruct Hd as (j & <- & _). destruct (Nat.eqb j q); lia.
  - unfold hot. now rewrite map_length, seq_length.
Qed.

Lemma value_perm e : nbits pf t = 8 * Z.of_nat (nbytes pf t) ->
  (forall bytes, length bytes = nbytes pf t -> word_value pf t bytes = assemble e 256 bytes) <->
  (forall k, (k < nbytes pf t)%nat -> nth k (perm pf t) 0%nat = wanted e k).
Proof.
  intros Hb. unfold word_value. replace (nbits pf t =? 8 * Z.of_nat (nbytes pf t)) with true by lia. split.
  - intros H k Hk. assert (Hq : (wanted e k < nbytes pf t)%nat) by (destruct e; cbn [wanted]; lia).
    destruct (hot_digits _ Hq) as [Hd Hl].
    assert (E : nth (nth k (perm pf t) 0%nat) (hot (wanted e k)) 0 = 1).
    { transitivity (nth k (map (fun q => nth q (hot (wanted e k)) 0) (perm pf t)) 0).
      - symmetry. rewrite (nth_map_in (fun q => nth q (hot (wanted e k)) 0) (perm pf t) k 0 0%nat) by lia. reflexivity.
      - rewrite <- (number_digit 256).
        + rewrite H by exact Hl. unfold assemble. rewrite number_digit; [|lia| |].
          * destruct e; cbn [wanted] in *.
            -- rewrite rev_nth by lia. rewrite Hl, hot_nth by lia.
               replace (nbytes pf t - S k)%nat with (nbytes pf t - 1 - k)%nat by lia. now rewrite Nat.eqb_refl.
            -- rewrite hot_nth by lia. now rewrite Nat.eqb_refl.
          * destruct e; [now apply digits_rev|assumption].
          * destruct e; [rewrite rev_length|]; lia.
        + lia.
        + intros d Hin. apply in_map_iff in Hin. destruct Hin as (j & <- & _). rewrite hot_nth by assumption.
          destruct (Nat.eqb j (wanted e k)); lia.
        + rewrite map_length. lia. }
    rewrite hot_nth in E by assumption.
    destruct (Nat.eqb (nth k (perm pf t) 0%nat) (wanted e k)) eqn:Ek; [now apply Nat.eqb_eq|discriminate E].
  - intros H bytes Hlb. rewrite (perm_seq e H bytes Hlb). destruct e; reflexivity.
Qed.

End Order.
