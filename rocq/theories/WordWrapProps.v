(* Theorems about word wrapping: C40, C41, C50 *)
From Coq Require Import ZArith Bool List Lia ZifyBool.
From Verif Require Import ArrLib WordWrapModel WordWrapSpec WordWrapProofs WordWrapProofs2 WordWrapProofs3 WordWrapProofs4.
Import ListNotations.
Open Scope Z_scope.

(* the arguments are of their types, and the geometry indices are valid *)
Definition args_ok (W : Z) (words : list word) (trailing : Z) (geometry : list geom) (first : nat) : Prop :=
  Forall (fun w => 0 <= space_size w <= size_max W /\ 0 <= word_size w <= size_max W) words /\
  0 <= trailing <= size_max W /\
  Forall (fun g => 0 <= line_size g <= size_max W /\ (next_geometry_index g < length geometry)%nat) geometry /\
  (first < length geometry)%nat.

(* the size of the first word and the space in front of it can be represented, or no line is
   of the greatest size *)
Definition first_exact (W : Z) (words : list word) (geometry : list geom) : Prop :=
  space_of words 0 + size_of words 0 <= size_max W \/ Forall (fun g => line_size g < size_max W) geometry.
(* likewise, and the size of the last word and the trailing space *)
Definition ends_exact (W : Z) (words : list word) (trailing : Z) (geometry : list geom) : Prop :=
  (space_of words 0 + size_of words 0 <= size_max W /\ size_of words (length words - 1) + trailing <= size_max W) \/
  Forall (fun g => line_size g < size_max W) geometry.

(* the notions of the specification for the arguments *)
Definition is_layout words trailing geometry first :=
  layout (length words) (space_of words) (size_of words) trailing (line_sizes (table_of geometry) first) 0 0.
Definition is_greedy words trailing geometry first :=
  greedy_layout (length words) (space_of words) (size_of words) trailing (line_sizes (table_of geometry) first) 0 0.
Definition is_optimal words trailing geometry first :=
  optimal (length words) (space_of words) (size_of words) trailing (line_sizes (table_of geometry) first).

(* C40: for all arguments but for the exception in first_exact, greedy() gives the layout in
   which each line has as many words as fit.  Missing: the exception, where it does not; see
   greedy_exact_refuted. *)
Theorem greedy_exact_partial W words trailing geometry first :
  args_ok W words trailing geometry first -> first_exact W words geometry -> words <> [] ->
  exists breaks, greedy W words trailing geometry first = Some breaks /\ is_greedy words trailing geometry first breaks.
Proof.
  intros (Hw & Ht & Hg & Hf) He Hne. unfold greedy.
  destruct (Nat.ltb_spec (length words) 2) as [H1|H2].
  - exists []. split; [reflexivity|]. assert (length words = 1%nat) as Hl by (destruct words as [|? []]; cbn in *; [congruence|reflexivity|lia]).
    apply greedy_last; [lia|]. left. assumption.
  - destruct (greedy_loop_ok W words trailing geometry Hw Ht Hg He (length words) first 0 Hf ltac:(lia) ltac:(lia)) as (l & E & H).
    exists l. split; [exact E|]. apply H. reflexivity.
Qed.

Definition sample_words := map (Word 1) [3;2;5;1;7;2;4;3;6;1;2;8].
Definition sample_geometry := [Geom 10 1; Geom 12 0].
Lemma sample_ok : args_ok 64 sample_words 1 sample_geometry 0 /\ first_exact 64 sample_words sample_geometry /\
  ends_exact 64 sample_words 1 sample_geometry.
Proof.
  split; [|split].
  - split; [|split; [|split]]; [|cbv; split; discriminate| |cbn; lia].
    + repeat constructor; cbn; lia.
    + repeat constructor; cbn; lia.
  - right. repeat constructor; cbn; lia.
  - right. repeat constructor; cbn; lia.
Qed.
Example greedy_exact_case : exists breaks, greedy 64 sample_words 1 sample_geometry 0 = Some breaks /\
  is_greedy sample_words 1 sample_geometry 0 breaks /\ breaks = [2;4;6;8;10]%nat.
Proof.
  destruct (greedy_exact_partial 64 sample_words 1 sample_geometry 0 (proj1 sample_ok) (proj1 (proj2 sample_ok)) ltac:(discriminate)) as (b & E & H).
  exists b. split; [exact E|]. split; [exact H|]. vm_compute in E. congruence.
Qed.
Print Assumptions greedy_exact_partial.

(* a space in front of a word of size SIZE_MAX is lost, and the next word, of size zero, is
   placed on the same line, although there is no room *)
Theorem greedy_exact_refuted : ~ (forall W words trailing geometry first,
  args_ok W words trailing geometry first -> words <> [] ->
  exists breaks, greedy W words trailing geometry first = Some breaks /\ is_greedy words trailing geometry first breaks).
Proof.
  intros H. set (M := 2 ^ 64 - 1).
  destruct (H 64 [Word 1 M; Word 0 0] 0 [Geom M 0] 0%nat) as (b & E & Hb).
  - split; [|split; [|split]]; [|cbv; split; discriminate| |cbn; lia].
    + repeat constructor; cbn; discriminate.
    + repeat constructor; cbn; discriminate.
  - discriminate.
  - assert (b = []) as -> by (vm_compute in E; congruence).
    inversion Hb as [k i Hi [Hf|Hf]|]; subst; [discriminate|]. vm_compute in Hf. apply Hf. reflexivity.
Qed.
Print Assumptions greedy_exact_refuted.

(* C50: no layout has fewer lines than that of greedy() *)
Section Fewest.
  Variable n : nat.
  Variables space size : nat -> Z.
  Variable trailing : Z.
  Hypothesis Hsp : forall i, 0 <= space i.
  Hypothesis Hsz : forall i, 0 <= size i.
  Hypothesis Htr : 0 <= trailing.
  Variable line : nat -> Z.
  Notation text := (text_size n space size trailing).

  Lemma text_mono i j k : (i < j <= k)%nat -> (k <= n)%nat -> text i j <= text i k.
  Proof.
    intros H Hk. rewrite !text_size_tsize. pose proof (tsize_mono space size Hsp Hsz i j k H).
    destruct (Nat.eqb_spec j n); destruct (Nat.eqb_spec k n); lia.
  Qed.

  Lemma text_anti i i' j : (i <= i' < j)%nat -> text i' j <= text i j.
  Proof.
    intros [H1 H2]. rewrite !text_size_tsize. destruct (Nat.eq_dec i i') as [->|Hne]; [lia|].
    assert (H : forall m, (i' < m)%nat -> tsize space size i' m <= tsize space size i m); [|specialize (H j H2); lia].
    induction m as [|m IH]; [lia|]. intros Hm. destruct (Nat.eq_dec m i') as [->|].
    - rewrite tsize_one. rewrite tsize_step by lia. pose proof (tsize_nonneg space size Hsp Hsz i i' ltac:(lia)).
      specialize (Hsp i'). destruct (Nat.eqb_spec i' 0); lia.
    - rewrite !tsize_step by lia. specialize (IH ltac:(lia)). lia.
  Qed.

  Lemma fewest k i breaks : greedy_layout n space size trailing line k i breaks ->
    forall i' breaks' cost', (i' <= i)%nat -> layout n space size trailing line k i' breaks' cost' ->
    (length breaks <= length breaks')%nat.
  Proof.
    induction 1 as [k i Hi Hf|k i j breaks Hij Hf Hnf Hg IH]; intros i' breaks' cost' Hi' Hl; [cbn; lia|].
    assert (Hmax : forall j', (i' < j' <= n)%nat -> fits n space size trailing (line k) i' j' -> (j' <= j)%nat).
    { intros j' Hj' Hfit. destruct (Nat.le_gt_cases j' j) as [|Hgt]; [assumption|]. exfalso.
      destruct Hfit as [->|Hfit]; [lia|]. apply Hnf. right.
      pose proof (text_mono i (S j) j' ltac:(lia) ltac:(lia)). pose proof (text_anti i' i j' ltac:(lia)). lia. }
    inversion Hl as [? ? Hi2 Hf2|? ? j' br c Hij' Hf2 Hl2]; subst.
    - specialize (Hmax n ltac:(lia) Hf2). lia.
    - cbn [length]. apply le_n_S. apply (IH j' br c); [|assumption]. apply Hmax; [lia|assumption].
  Qed.
End Fewest.

Theorem greedy_fewest_lines W words trailing geometry first breaks breaks' cost' :
  args_ok W words trailing geometry first -> first_exact W words geometry -> words <> [] ->
  greedy W words trailing geometry first = Some breaks ->
  is_layout words trailing geometry first breaks' cost' -> (length breaks <= length breaks')%nat.
Proof.
  intros Ha He Hne E Hl. destruct (greedy_exact_partial _ _ _ _ _ Ha He Hne) as (b & E' & Hg).
  assert (b = breaks) as -> by congruence. destruct Ha as (Hw & Ht & _).
  eapply (fewest (length words) (space_of words) (size_of words) trailing); [| | |exact Hg| |exact Hl]; [| |lia|lia].
  - intros i. unfold space_of. destruct (nth_error words i) eqn:En; [|lia]. apply nth_error_In in En. rewrite Forall_forall in Hw. apply Hw in En. lia.
  - intros i. unfold size_of. destruct (nth_error words i) eqn:En; [|lia]. apply nth_error_In in En. rewrite Forall_forall in Hw. apply Hw in En. lia.
Qed.
Print Assumptions greedy_fewest_lines.

(* C41: for two or more words, and but for the exception in ends_exact, wrap() gives a layout
   of least badness, and that badness, if it is less than 2^BW - 1 and the cache is not too
   large; otherwise it throws.  Missing: the exception, see knuth_wrap_optimal_refuted; fewer
   than two words, see knuth_badness_refuted. *)
Theorem knuth_wrap_optimal_partial W BW words trailing geometry first m_badness :
  1 <= BW -> args_ok W words trailing geometry first -> ends_exact W words trailing geometry ->
  (2 <= length words)%nat ->
  exists fuel0 r,
    (forall fuel, (fuel0 <= fuel)%nat -> knuth_wrap W BW words fuel m_badness trailing geometry first = Some r) /\
    match r with
    | Wrapped breaks badness => is_optimal words trailing geometry first breaks badness /\ badness < 2 ^ BW - 1
    | Overflow => (forall breaks cost, is_layout words trailing geometry first breaks cost -> 2 ^ BW - 1 <= cost) \/
                  2 ^ W - 1 < Z.of_nat (length words) * Z.of_nat (length geometry)
    end.
Proof.
  intros HBW (Hw & Ht & Hg & Hf) He Hn. exact (knuth_ok W BW HBW words trailing geometry first Hw Ht Hg Hf Hn He m_badness).
Qed.

(* so there is a result if there is a layout of small badness *)
Theorem knuth_wrap_success W BW words trailing geometry first m_badness breaks cost :
  1 <= BW -> args_ok W words trailing geometry first -> ends_exact W words trailing geometry ->
  (2 <= length words)%nat -> Z.of_nat (length words) * Z.of_nat (length geometry) <= 2 ^ W - 1 ->
  is_layout words trailing geometry first breaks cost -> cost < 2 ^ BW - 1 ->
  exists fuel0 breaks' cost',
    (forall fuel, (fuel0 <= fuel)%nat -> knuth_wrap W BW words fuel m_badness trailing geometry first = Some (Wrapped breaks' cost')) /\
    is_optimal words trailing geometry first breaks' cost'.
Proof.
  intros HBW Ha He Hn Hs Hl Hc.
  destruct (knuth_wrap_optimal_partial W BW words trailing geometry first m_badness HBW Ha He Hn) as (fuel0 & [b c|] & Hrun & Hr).
  - exists fuel0, b, c. split; [exact Hrun|]. apply Hr.
  - exfalso. destruct Hr as [Hr|Hr]; [|lia]. apply Hr in Hl. lia.
Qed.

(* there is a layout always: each word on a line of its own *)
Lemma layout_exists words trailing geometry first : words <> [] ->
  exists breaks cost, is_layout words trailing geometry first breaks cost.
Proof.
  intros Hne. assert (Hn : (0 < length words)%nat) by (destruct words; [congruence|cbn; lia]). unfold is_layout. clear Hne.
  assert (H : forall d i k, (i + S d = length words)%nat -> exists breaks cost,
    layout (length words) (space_of words) (size_of words) trailing (line_sizes (table_of geometry) first) k i breaks cost).
  { induction d as [|d IH]; intros i k Hi.
    - exists [], 0. constructor; [lia|]. left. lia.
    - destruct (IH (S i) (S k) ltac:(lia)) as (b & c & H). eexists (S i :: b), _. constructor; [lia| |exact H]. left. reflexivity. }
  apply (H (length words - 1)%nat 0%nat 0%nat). lia.
Qed.

Lemma run_more BW words : forall a b s s', run BW words a s = Some s' -> run BW words (b + a) s = Some s'.
Proof.
  induction a as [|a IH]; intros b s s' H.
  - cbn [run] in H. destruct (label_ s) eqn:El; try discriminate. replace (b + 0)%nat with b by lia.
    destruct b; cbn [run]; rewrite El; assumption.
  - rewrite Nat.add_succ_r. cbn [run] in *. destruct (label_ s); [| | | | |assumption];
    (destruct (step BW words s); [|discriminate]; cbn [obind] in *; apply IH; assumption).
Qed.
Lemma knuth_more W BW words a b m_badness trailing geometry first r :
  knuth_wrap W BW words a m_badness trailing geometry first = Some r ->
  knuth_wrap W BW words (b + a) m_badness trailing geometry first = Some r.
Proof.
  unfold knuth_wrap. destruct (_ <? 2)%nat; [auto|].
  destruct (init_line_slots geometry (length words) first 0) as [[lss mx]|]; [|discriminate]. cbn [obind].
  destruct (_ >? _); [auto|]. destruct (nth_error lss 0); [|discriminate]. cbn [obind].
  destruct (set_nth lss 0 _); [|discriminate]. cbn [obind].
  match goal with |- context [run BW words a ?s] => destruct (run BW words a s) as [s'|] eqn:Er end; [|discriminate].
  rewrite (run_more _ _ _ b _ _ Er). auto.
Qed.

Example knuth_wrap_case : exists fuel0, forall fuel, (fuel0 <= fuel)%nat ->
  knuth_wrap 64 64 sample_words fuel 0 1 sample_geometry 0 = Some (Wrapped [2;4;5;8;10]%nat 48).
Proof.
  exists 2000%nat. intros fuel Hf. replace fuel with ((fuel - 2000) + 2000)%nat by (apply Nat.sub_add; exact Hf).
  apply knuth_more. vm_compute. reflexivity.
Qed.
(* the hypotheses of the theorem are met *)
Example knuth_wrap_hyps : 1 <= 64 /\ args_ok 64 sample_words 1 sample_geometry 0 /\ ends_exact 64 sample_words 1 sample_geometry /\
  (2 <= length sample_words)%nat /\ Z.of_nat (length sample_words) * Z.of_nat (length sample_geometry) <= 2 ^ 64 - 1.
Proof. split; [lia|]. split; [apply sample_ok|]. split; [apply sample_ok|]. cbn. lia. Qed.
(* and it is better than the greedy layout *)
Example knuth_beats_greedy : exists cost, is_layout sample_words 1 sample_geometry 0 [2;4;6;8;10]%nat cost /\ 48 < cost.
Proof.
  eexists. split.
  - unfold is_layout. repeat (eapply layout_break; [cbn; lia|right; vm_compute; discriminate|]). apply layout_last; [cbn; lia|right; vm_compute; discriminate].
  - vm_compute. reflexivity.
Qed.
Print Assumptions knuth_wrap_optimal_partial.
Print Assumptions knuth_wrap_success.

Theorem knuth_wrap_optimal_refuted : ~ (forall W BW words trailing geometry first m_badness,
  1 <= BW -> args_ok W words trailing geometry first -> (2 <= length words)%nat ->
  forall fuel breaks badness, knuth_wrap W BW words fuel m_badness trailing geometry first = Some (Wrapped breaks badness) ->
  is_layout words trailing geometry first breaks badness).
Proof.
  intros H. set (M := 2 ^ 64 - 1).
  assert (Hb := H 64 64 [Word 1 M; Word 0 0] 0 [Geom M 0] 0%nat 0 ltac:(lia)). specialize (fun a => Hb a ltac:(cbn; lia) 100%nat [] 0).
  assert (Ha : args_ok 64 [Word 1 M; Word 0 0] 0 [Geom M 0] 0).
  { split; [|split; [|split]]; [|cbv; split; discriminate| |cbn; lia].
    + repeat constructor; cbn; discriminate.
    + repeat constructor; cbn; discriminate. }
  specialize (Hb Ha ltac:(vm_compute; reflexivity)).
  inversion Hb as [k i Hi [Hf|Hf]|]; subst; [discriminate|]. vm_compute in Hf. apply Hf. reflexivity.
Qed.
Print Assumptions knuth_wrap_optimal_refuted.

(* With fewer than two words, get_badness() gives the badness of an earlier text: the
   documentation says it is the badness resulting from the last invocation of wrap(). *)
Theorem knuth_badness_refuted : ~ (forall W BW words trailing geometry first m_badness,
  1 <= BW -> args_ok W words trailing geometry first -> words <> [] -> 0 <= m_badness < 2 ^ BW - 1 ->
  forall fuel breaks badness, knuth_wrap W BW words fuel m_badness trailing geometry first = Some (Wrapped breaks badness) ->
  exists breaks' cost, is_layout words trailing geometry first breaks' cost /\ badness = cost).
Proof.
  intros H. destruct (H 64 64 [Word 0 5] 0 [Geom 10 0] 0%nat 48) with (fuel := 100%nat) (breaks := @nil nat) (badness := 48) as (b & c & Hl & Hc).
  - lia.
  - split; [|split; [|split]]; [repeat constructor; cbn; lia|cbn; lia|repeat constructor; cbn; lia|cbn; lia].
  - discriminate.
  - lia.
  - reflexivity.
  - unfold is_layout in Hl. inversion Hl as [|? ? j ? ? Hj]; subst; [discriminate|]. cbn in Hj. lia.
Qed.
Print Assumptions knuth_badness_refuted.
