(* Greedy word wrapping, and lemmas about text sizes *)
From Coq Require Import ZArith Bool List Lia ZifyBool.
From Verif Require Import ArrLib WordWrapModel WordWrapSpec.
Import ListNotations.
Open Scope Z_scope.

Definition space_of (words : list word) (i : nat) : Z :=
  match nth_error words i with Some w => space_size w | None => 0 end.
Definition size_of (words : list word) (i : nat) : Z :=
  match nth_error words i with Some w => word_size w | None => 0 end.
Definition table_of (geometry : list geom) : list (Z * nat) := map (fun g => (line_size g, next_geometry_index g)) geometry.

Lemma nth_skipn_cons {A} (l : list A) i x : nth_error l i = Some x -> skipn i l = x :: skipn (S i) l.
Proof.
  revert l. induction i as [|i IH]; intros [|y l] H; try discriminate.
  - cbn in H. injection H as ->. reflexivity.
  - cbn [nth_error] in H. cbn [skipn]. now apply IH.
Qed.

Section Sizes.
  Variable n : nat.
  Variables space size : nat -> Z.
  Variable trailing : Z.
  Hypothesis Hsp : forall i, 0 <= space i.
  Hypothesis Hsz : forall i, 0 <= size i.
  Hypothesis Htr : 0 <= trailing.

  (* without the trailing space *)
  Definition tsize (i j : nat) : Z := (if Nat.eqb i 0 then space 0 else 0) + words_size space size i (j - i).

  Lemma tsize_one i : tsize i (S i) = (if Nat.eqb i 0 then space 0 else 0) + size i.
  Proof. unfold tsize. replace (S i - i)%nat with 1%nat by lia. reflexivity. Qed.

  Lemma tsize_step i j : (i < j)%nat -> tsize i (S j) = tsize i j + space j + size j.
  Proof.
    intros H. unfold tsize. replace (S j - i)%nat with (S (j - i)) by lia.
    assert (E : words_size space size i (S (j - i)) = words_size space size i (j - i) + space (i + (j - i))%nat + size (i + (j - i))%nat).
    { destruct (j - i)%nat eqn:Ej; [lia|reflexivity]. }
    rewrite E. replace (i + (j - i))%nat with j by lia. lia.
  Qed.

  Lemma tsize_mono i j k : (i < j <= k)%nat -> tsize i j <= tsize i k.
  Proof.
    intros [H1 H2]. induction k as [|k IH]; [lia|]. destruct (Nat.eq_dec j (S k)) as [->|]; [lia|].
    rewrite tsize_step by lia. specialize (Hsp k). specialize (Hsz k). lia.
  Qed.

  Lemma tsize_nonneg i j : (i < j)%nat -> 0 <= tsize i j.
  Proof.
    intros H. apply Z.le_trans with (tsize i (S i)); [|apply tsize_mono; lia]. rewrite tsize_one.
    specialize (Hsp 0%nat). specialize (Hsz i). destruct (Nat.eqb i 0); lia.
  Qed.

  Lemma text_size_tsize i j : text_size n space size trailing i j = tsize i j + (if Nat.eqb j n then trailing else 0).
  Proof. reflexivity. Qed.
End Sizes.

Section Greedy.
  Variable W : Z.
  Variable words : list word.
  Variable trailing : Z.
  Variable geometry : list geom.
  Hypothesis Hwords : Forall (fun w => 0 <= space_size w <= size_max W /\ 0 <= word_size w <= size_max W) words.
  Hypothesis Htr : 0 <= trailing <= size_max W.
  Hypothesis Hgeom : Forall (fun g => 0 <= line_size g <= size_max W /\ (next_geometry_index g < length geometry)%nat) geometry.

  Let n := length words.
  Let sp := space_of words.
  Let sz := size_of words.

  Lemma space_nonneg i : 0 <= sp i.
  Proof.
    unfold sp, space_of. destruct (nth_error words i) as [w|] eqn:E; [|lia]. rewrite Forall_forall in Hwords.
    apply nth_error_In in E. apply Hwords in E. lia.
  Qed.
  Lemma size_nonneg i : 0 <= sz i.
  Proof.
    unfold sz, size_of. destruct (nth_error words i) as [w|] eqn:E; [|lia]. rewrite Forall_forall in Hwords.
    apply nth_error_In in E. apply Hwords in E. lia.
  Qed.

  Notation T := (tsize sp sz).
  Notation fit := (fits n sp sz trailing).

  Lemma greedy_line_ok L i : forall k c cursor, (i < c)%nat -> (c + k = n)%nat -> fit L i c ->
    (cursor = T i c \/ (L < cursor /\ L < T i c)) ->
    (c = n -> fit L i n) ->
    match greedy_line n (skipn c words) trailing L cursor c with
    | None => fit L i n
    | Some j => (i < j < n)%nat /\ fit L i j /\ ~ fit L i (S j)
    end.
  Proof.
    induction k as [|k IH]; intros c cursor Hic Hk Hfit Hcur Hend.
    - rewrite skipn_all2 by (fold n; lia). cbn. apply Hend. lia.
    - assert (Hc : (c < n)%nat) by lia.
      destruct (nth_error words c) as [w|] eqn:Ew; [|apply nth_error_None in Ew; fold n in Ew; lia].
      rewrite (nth_skipn_cons _ _ _ Ew). cbn [greedy_line].
      assert (Esp : sp c = space_size w) by (unfold sp, space_of; now rewrite Ew).
      assert (Esz : sz c = word_size w) by (unfold sz, size_of; now rewrite Ew).
      pose proof (tsize_step sp sz i c Hic) as HT. rewrite Esp, Esz in HT.
      pose proof (space_nonneg c) as Hn1. pose proof (size_nonneg c) as Hn2. rewrite Esp in Hn1. rewrite Esz in Hn2.
      assert (Hstop : L < T i (S c) + (if Nat.eqb (S c) n then trailing else 0) ->
        (i < c < n)%nat /\ fit L i c /\ ~ fit L i (S c)).
      { intros H. split; [lia|]. split; [assumption|]. intros [He|He]; [lia|].
        rewrite text_size_tsize in He. lia. }
      assert (Hnn : 0 <= (if Nat.eqb (S c) n then trailing else 0)) by (destruct (Nat.eqb (S c) n); lia).
      destruct (Z.geb_spec L cursor); [|apply Hstop; lia].
      destruct Hcur as [Hcur|Hcur]; [|lia].
      destruct (Z.geb_spec (L - cursor) (word_size w)); [|apply Hstop; lia].
      destruct (Z.geb_spec (L - cursor - word_size w) (space_size w)); [|apply Hstop; lia].
      destruct (Nat.eqb_spec c (n - 1)) as [El|El]; cbn [negb].
      + destruct (Nat.eqb_spec (S c) n); [|lia].
        destruct (Z.geb_spec (L - cursor - word_size w - space_size w) trailing); [|apply Hstop; lia].
        rewrite skipn_all2 by (fold n; lia). cbn [greedy_line]. right. rewrite text_size_tsize.
        replace n with (S c) by lia. rewrite Nat.eqb_refl. lia.
      + apply IH; [lia|lia| | |lia].
        * right. rewrite text_size_tsize. destruct (Nat.eqb_spec (S c) n); lia.
        * left. lia.
  Qed.

  Hypothesis Hexact : sp 0%nat + sz 0%nat <= size_max W \/ Forall (fun g => line_size g < size_max W) geometry.

  Lemma greedy_loop_ok : forall fuel gi i, (gi < length geometry)%nat -> (i < n)%nat -> (n - i <= fuel)%nat ->
    exists l, greedy_loop W fuel words trailing geometry gi i = Some l /\
    forall k0 (line : nat -> Z), (forall k, line (k0 + k)%nat = line_sizes (table_of geometry) gi k) ->
    greedy_layout n sp sz trailing line k0 i l.
  Proof.
    induction fuel as [|fuel IH]; intros gi i Hgi Hi Hf; [lia|]. cbn [greedy_loop].
    destruct (nth_error geometry gi) as [g|] eqn:Eg; [|apply nth_error_None in Eg; lia]. cbn [obind].
    destruct (nth_error words i) as [w|] eqn:Ew; [|apply nth_error_None in Ew; fold n in Ew; lia]. cbn [obind].
    assert (Hg : 0 <= line_size g <= size_max W /\ (next_geometry_index g < length geometry)%nat).
    { rewrite Forall_forall in Hgeom. apply Hgeom. eapply nth_error_In; eauto. }
    assert (Esp : sp i = space_size w) by (unfold sp, space_of; now rewrite Ew).
    assert (Esz : sz i = word_size w) by (unfold sz, size_of; now rewrite Ew).
    assert (Hone : fit (line_size g) i (S i)) by (left; reflexivity).
    fold n.
    assert (Htab : forall k, line_sizes (table_of geometry) gi k =
      match k with O => line_size g | S k => line_sizes (table_of geometry) (next_geometry_index g) k end).
    { intros k. assert (Et : nth_error (table_of geometry) gi = Some (line_size g, next_geometry_index g)).
      { unfold table_of. now rewrite nth_error_map, Eg. }
      destruct k; cbn [line_sizes]; now rewrite Et. }
    pose proof (greedy_line_ok (line_size g) i (n - S i) (S i)
      (if Nat.eqb i 0 then add_sat W (word_size w) (space_size w) else word_size w) ltac:(lia) ltac:(lia) Hone) as HL.
    assert (Hl0 : forall k0 (line : nat -> Z), (forall k, line (k0 + k)%nat = line_sizes (table_of geometry) gi k) ->
      line k0 = line_size g /\ forall k, line (S k0 + k)%nat = line_sizes (table_of geometry) (next_geometry_index g) k).
    { intros k0 line Hl. split.
      - specialize (Hl 0%nat). rewrite Nat.add_0_r, Htab in Hl. exact Hl.
      - intros k. specialize (Hl (S k)). rewrite Htab in Hl. now replace (S k0 + k)%nat with (k0 + S k)%nat by lia. }
    match type of HL with ?P -> ?Q -> _ => assert (HP : P); [|assert (HQ : Q); [intros Hq; left; lia|specialize (HL HP HQ)]] end.
    { rewrite tsize_one. rewrite Esz. destruct (Nat.eqb_spec i 0) as [->|]; [|left; lia].
      unfold add_sat. rewrite Esp. destruct (Z.leb_spec (word_size w + space_size w) (size_max W)); [left; lia|].
      destruct Hexact as [He|He]; [rewrite Esp, Esz in He; lia|]. right.
      rewrite Forall_forall in He. assert (line_size g < size_max W) by (apply He; eapply nth_error_In; eauto). lia. }
    destruct (greedy_line n _ _ _ _ _) as [j|].
    - destruct HL as (Hj & Hf1 & Hf2).
      destruct (IH (next_geometry_index g) j ltac:(lia) ltac:(lia) ltac:(lia)) as (l & El & Hl).
      rewrite El. cbn [obind]. exists (j :: l). split; [reflexivity|]. intros k0 line Hline.
      destruct (Hl0 _ _ Hline) as [E0 E1].
      constructor; [assumption|now rewrite E0|now rewrite E0|]. apply Hl. exact E1.
    - exists []. split; [reflexivity|]. intros k0 line Hline. destruct (Hl0 _ _ Hline) as [E0 E1].
      constructor; [assumption|now rewrite E0].
  Qed.
End Greedy.
