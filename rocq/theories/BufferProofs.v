(* Lemmas for C26-C28. *)
From Coq Require Import ZArith Lia Bool List ZifyBool.
From Verif Require Import BufferModel.
Import ListNotations.
Open Scope Z_scope.

Section Buffer.
Context (W : Z) {T : Type} (dflt : T).

Notation size_max := (size_max W).
Notation usize := (usize W).

Lemma usize_id x : 0 <= x <= size_max -> usize x = x.
Proof. unfold BufferModel.size_max, BufferModel.usize. intros. apply Z.mod_small. lia. Qed.

Lemma suggest_spec cur mn mx : 0 <= cur <= mx -> 0 <= mn <= mx -> mx <= size_max ->
  exists n, suggest_new_buffer_size W cur mn mx = Some n /\
    Z.max cur mn <= n <= mx /\ (mn <= cur -> n = cur) /\
    (cur < mn -> cur + cur / 2 <= n \/ n = mx).
Proof.
  intros Hc Hm Hx. unfold suggest_new_buffer_size.
  replace (cur <=? mx) with true by lia. replace (mn <=? mx) with true by lia. cbn [negb].
  pose proof (Z.div_pos cur 2 ltac:(lia) ltac:(lia)).
  destruct (Z.leb_spec mn cur).
  - exists cur. split; [reflexivity|]. lia.
  - rewrite (usize_id (mx - cur)) by lia. destruct (Z.leb_spec (cur / 2) (mx - cur)).
    + rewrite usize_id by lia. destruct (Z.leb_spec mn (cur + cur / 2)); eexists; (split; [reflexivity|]); lia.
    + exists mx. split; [reflexivity|]. lia.
Qed.

Notation len l := (Z.of_nat (length l)).

Lemma copy_n_all (src dst : list T) to : 0 <= to -> to + len src <= len dst ->
  copy_n src 0 (len src) dst to =
    Some (firstn (Z.to_nat to) dst ++ src ++ skipn (Z.to_nat to + length src) dst).
Proof.
  intros H1 H2. unfold copy_n.
  replace ((0 <=? 0) && (0 <=? len src) && (0 <=? to) && (0 + len src <=? len src) && (to + len src <=? len dst))
    with true by lia.
  rewrite Nat2Z.id. cbn [Z.to_nat skipn]. rewrite firstn_all.
  replace (Z.to_nat (to + len src)) with (Z.to_nat to + length src)%nat by lia. reflexivity.
Qed.

Lemma copy_n_front (src dst : list T) n : (n <= length src)%nat -> (n <= length dst)%nat ->
  copy_n src 0 (Z.of_nat n) dst 0 = Some (firstn n src ++ skipn n dst).
Proof.
  intros H1 H2. unfold copy_n.
  replace ((0 <=? 0) && (0 <=? Z.of_nat n) && (0 <=? 0) && (0 + Z.of_nat n <=? len src) &&
    (0 + Z.of_nat n <=? len dst)) with true by lia.
  rewrite Z.add_0_l, Nat2Z.id. reflexivity.
Qed.

Lemma copy_n_back (src dst : list T) from : (from <= length src)%nat ->
  (length src - from <= length dst)%nat ->
  copy_n src (Z.of_nat from) (Z.of_nat (length src - from)) dst (Z.of_nat (length dst - (length src - from)))
  = Some (firstn (length dst - (length src - from)) dst ++ skipn from src).
Proof.
  intros H1 H2. unfold copy_n.
  match goal with |- (if ?b then _ else _) = _ => replace b with true by lia end.
  rewrite !Nat2Z.id. rewrite (firstn_all2 (skipn from src)) by (rewrite skipn_length; lia).
  rewrite (skipn_all2 dst) by lia. now rewrite app_nil_r.
Qed.

Lemma fill_n_repeat (dst : list T) to n v : fill_n dst (Z.of_nat to) (Z.of_nat n) v =
  copy_n (repeat v n) 0 (len (repeat v n)) dst (Z.of_nat to).
Proof.
  unfold fill_n, copy_n. rewrite repeat_length, !Nat2Z.id. cbn [Z.to_nat skipn].
  rewrite (firstn_all2 (repeat v n)) by (rewrite repeat_length; lia).
  match goal with |- (if ?b then _ else _) = (if ?c then _ else _) => replace c with b by lia end.
  reflexivity.
Qed.

(* append and append_a of (n copies of) data *)
Definition append_post (mem data : list T) (off : nat) (r : outcome (list T * Z)) : Prop :=
  (Z.of_nat off + len data <= size_max ->
     exists mem', r = Done (mem', Z.of_nat (off + length data)) /\
       firstn (off + length data) mem' = firstn off mem ++ data /\
       len mem' <= size_max /\
       ((off + length data <= length mem)%nat ->
          length mem' = length mem /\ skipn (off + length data) mem' = skipn (off + length data) mem) /\
       ((length mem < off + length data)%nat ->
          (off + length data <= length mem')%nat /\
          (len mem + len mem / 2 <= len mem' \/ len mem' = size_max))) /\
  (size_max < Z.of_nat off + len data -> r = Throw (mem, Z.of_nat off)).

Lemma append_gen mem data off : (off <= length mem)%nat -> len mem <= size_max -> len data <= size_max ->
  append_post mem data off (append W dflt mem data (Z.of_nat off)).
Proof.
  intros Ho Hm Hd. unfold append, reserve_extra, reserve_extra_a, bsize.
  replace (Z.of_nat off <=? len mem) with true by lia. cbn [negb].
  rewrite (usize_id (len mem - Z.of_nat off)) by lia.
  destruct (Z.leb_spec (len data) (len mem - Z.of_nat off)) as [L|L].
  - split; [|lia]. intros Hs. rewrite copy_n_all by lia. rewrite usize_id by lia.
    rewrite Nat2Z.id. eexists. split; [do 2 f_equal; lia|].
    assert (Hl : length (firstn off mem ++ data ++ skipn (off + length data) mem) = length mem).
    { rewrite !app_length, firstn_length, skipn_length. lia. }
    split; [|split; [rewrite Hl; lia|split; [|lia]]].
    + rewrite app_assoc. rewrite firstn_app. rewrite firstn_all2 by (rewrite app_length, firstn_length; lia).
      rewrite app_length, firstn_length. replace (off + length data - _)%nat with 0%nat by lia.
      cbn [firstn]. now rewrite app_nil_r.
    + intros _. split; [exact Hl|]. rewrite app_assoc, skipn_app.
      rewrite skipn_all2 by (rewrite app_length, firstn_length; lia).
      rewrite app_length, firstn_length. replace (off + length data - _)%nat with 0%nat by lia. reflexivity.
  - unfold do_reserve, bsize. replace (Z.of_nat off <=? size_max) with true by lia. cbn [andb].
    rewrite (usize_id (size_max - Z.of_nat off)) by lia.
    destruct (Z.leb_spec (len data) (size_max - Z.of_nat off)) as [L2|L2].
    + split; [intros _|lia]. rewrite usize_id by lia.
      destruct (suggest_spec (len mem) (Z.of_nat off + len data) size_max) as (n & En & H1 & _ & H2); [lia..|].
      rewrite En. unfold copy_front. rewrite copy_n_front by (rewrite ?repeat_length; lia).
      assert (Hl : length (firstn off mem ++ skipn off (repeat dflt (Z.to_nat n))) = Z.to_nat n).
      { rewrite app_length, firstn_length, skipn_length, repeat_length. lia. }
      set (m1 := firstn off mem ++ skipn off (repeat dflt (Z.to_nat n))) in *.
      rewrite copy_n_all by lia. rewrite usize_id by lia. rewrite Nat2Z.id.
      eexists. split; [do 2 f_equal; lia|].
      assert (Hf : firstn off m1 = firstn off mem).
      { unfold m1. rewrite firstn_app, firstn_firstn, firstn_length.
        replace (off - _)%nat with 0%nat by lia. cbn [firstn]. rewrite app_nil_r. f_equal. lia. }
      assert (Hl2 : length (firstn off m1 ++ data ++ skipn (off + length data) m1) = Z.to_nat n).
      { rewrite !app_length, firstn_length, skipn_length. lia. }
      split; [|split; [rewrite Hl2; lia|split; [lia|]]].
      * rewrite Hf. rewrite app_assoc, firstn_app.
        rewrite firstn_all2 by (rewrite app_length, firstn_length; lia).
        rewrite app_length, firstn_length. replace (off + length data - _)%nat with 0%nat by lia.
        cbn [firstn]. now rewrite app_nil_r.
      * intros _. rewrite Hl2. split; [lia|]. destruct H2; lia.
    + split; [lia|]. intros _. reflexivity.
Qed.

Lemma append_a_eq mem v n off : (off <= length mem)%nat ->
  append_a W dflt mem v (Z.of_nat off) (Z.of_nat n) = append W dflt mem (repeat v n) (Z.of_nat off).
Proof.
  intros Ho. unfold append_a, append, bsize. rewrite repeat_length.
  destruct (reserve_extra W dflt mem (Z.of_nat off) (Z.of_nat n) (Z.of_nat off) size_max) as [[m o]|s|] eqn:E;
    [|reflexivity|reflexivity].
  assert (o = Z.of_nat off).
  { revert E. unfold reserve_extra, reserve_extra_a, do_reserve, copy_front.
    destruct (negb _); [discriminate|]. destruct (_ <=? _); [intros E; inversion E; reflexivity|].
    destruct (_ && _); [|discriminate]. destruct (suggest_new_buffer_size _ _ _ _); [|discriminate].
    destruct (copy_n _ _ _ _); [|discriminate]. intros E; inversion E; reflexivity. }
  subst o. rewrite fill_n_repeat, repeat_length. reflexivity.
Qed.

(* prepend and prepend_a; used is the number of elements from the offset to the end *)
Definition prepend_post (mem data : list T) (used : nat) (r : outcome (list T * Z)) : Prop :=
  (Z.of_nat used + len data <= size_max ->
     exists mem', r = Done (mem', len mem' - Z.of_nat (used + length data)) /\
       (used + length data <= length mem')%nat /\
       skipn (length mem' - (used + length data)) mem' = data ++ skipn (length mem - used) mem /\
       len mem' <= size_max /\
       ((used + length data <= length mem)%nat ->
          length mem' = length mem /\
          firstn (length mem - (used + length data)) mem' = firstn (length mem - (used + length data)) mem) /\
       ((length mem < used + length data)%nat ->
          len mem + len mem / 2 <= len mem' \/ len mem' = size_max)) /\
  (size_max < Z.of_nat used + len data -> r = Throw (mem, len mem - Z.of_nat used)).

Lemma prepend_place (m data tail : list T) k : (k + length data + length tail = length m)%nat ->
  skipn (k + length data) m = tail ->
  copy_n data 0 (len data) m (Z.of_nat k) = Some (firstn k m ++ data ++ tail).
Proof.
  intros H1 H2. rewrite copy_n_all by lia. rewrite Nat2Z.id, H2. reflexivity.
Qed.

Lemma prepend_gen mem data used : (used <= length mem)%nat -> len mem <= size_max -> len data <= size_max ->
  prepend_post mem data used (prepend W dflt mem data (len mem - Z.of_nat used)).
Proof.
  intros Ho Hm Hd. unfold prepend, reserve_extra_a, bsize.
  rewrite (usize_id (len mem - (len mem - Z.of_nat used))) by lia.
  replace (len mem - (len mem - Z.of_nat used)) with (Z.of_nat used) by lia.
  replace (Z.of_nat used <=? len mem) with true by lia. cbn [negb].
  rewrite (usize_id (len mem - Z.of_nat used)) by lia.
  destruct (Z.leb_spec (len data) (len mem - Z.of_nat used)) as [L|L].
  - split; [|lia]. intros Hs. rewrite (usize_id (len mem - Z.of_nat used - len data)) by lia.
    replace (len mem - Z.of_nat used - len data) with (Z.of_nat (length mem - (used + length data))) by lia.
    rewrite (prepend_place mem data (skipn (length mem - used) mem)).
    2:{ rewrite skipn_length. lia. }
    2:{ f_equal. lia. }
    assert (Hl : length (firstn (length mem - (used + length data)) mem ++ data ++ skipn (length mem - used) mem)
                 = length mem).
    { rewrite !app_length, firstn_length, skipn_length. lia. }
    eexists. split; [do 2 f_equal; rewrite Hl; lia|]. rewrite Hl.
    split; [lia|]. split; [|split; [lia|split; [|lia]]].
    + rewrite skipn_app. rewrite skipn_all2 by (rewrite firstn_length; lia).
      rewrite firstn_length. replace (length mem - (used + length data) - _)%nat with 0%nat by lia. reflexivity.
    + intros _. split; [reflexivity|]. rewrite firstn_app, firstn_firstn, firstn_length.
      replace (length mem - (used + length data) - _)%nat with 0%nat by lia. cbn [firstn].
      rewrite app_nil_r. f_equal. lia.
  - unfold do_reserve, bsize. replace (Z.of_nat used <=? size_max) with true by lia. cbn [andb].
    rewrite (usize_id (size_max - Z.of_nat used)) by lia.
    destruct (Z.leb_spec (len data) (size_max - Z.of_nat used)) as [L2|L2].
    + split; [intros _|lia]. rewrite (usize_id (Z.of_nat used + len data)) by lia.
      destruct (suggest_spec (len mem) (Z.of_nat used + len data) size_max) as (n & En & H1 & _ & H2); [lia..|].
      rewrite En. unfold copy_back, bsize. rewrite repeat_length.
      set (N := Z.to_nat n). assert (HN : Z.of_nat N = n) by (unfold N; lia). rewrite HN.
      rewrite (usize_id (n - Z.of_nat used)) by lia. rewrite (usize_id (n - len mem)) by lia.
      rewrite (usize_id (len mem - Z.of_nat used + (n - len mem))) by lia.
      replace (copy_n mem (len mem - Z.of_nat used) (Z.of_nat used) (repeat dflt N) (n - Z.of_nat used))
        with (copy_n mem (Z.of_nat (length mem - used)) (Z.of_nat (length mem - (length mem - used)))
              (repeat dflt N) (Z.of_nat (length (repeat dflt N) - (length mem - (length mem - used)))))
        by (f_equal; rewrite ?repeat_length; lia).
      rewrite copy_n_back by (rewrite ?repeat_length; lia).
      rewrite repeat_length. replace (length mem - (length mem - used))%nat with used by lia.
      set (m1 := firstn (N - used) (repeat dflt N) ++ skipn (length mem - used) mem).
      assert (Hl1 : length m1 = N).
      { unfold m1. rewrite app_length, firstn_length, skipn_length, repeat_length. lia. }
      rewrite usize_id by lia.
      replace (len mem - Z.of_nat used + (n - len mem) - len data) with (Z.of_nat (N - (used + length data))) by lia.
      rewrite (prepend_place m1 data (skipn (length mem - used) mem)).
      2:{ rewrite skipn_length. lia. }
      2:{ unfold m1. rewrite skipn_app. rewrite skipn_all2 by (rewrite firstn_length, repeat_length; lia).
          rewrite firstn_length, repeat_length.
          replace (N - (used + length data) + length data - _)%nat with 0%nat by lia. reflexivity. }
      assert (Hl2 : length (firstn (N - (used + length data)) m1 ++ data ++ skipn (length mem - used) mem) = N).
      { rewrite !app_length, firstn_length, skipn_length. lia. }
      eexists. split; [do 2 f_equal; rewrite Hl2; lia|]. rewrite Hl2.
      split; [lia|]. split; [|split; [lia|split; [lia|]]].
      * rewrite skipn_app. rewrite skipn_all2 by (rewrite firstn_length; lia).
        rewrite firstn_length. replace (N - (used + length data) - _)%nat with 0%nat by lia. reflexivity.
      * intros _. destruct H2; lia.
    + split; [lia|]. intros _. reflexivity.
Qed.

Lemma fill_n_repeat_Z (dst : list T) to n v : fill_n dst to (Z.of_nat n) v =
  copy_n (repeat v n) 0 (len (repeat v n)) dst to.
Proof.
  destruct (Z_lt_le_dec to 0).
  - unfold fill_n, copy_n. replace (0 <=? to) with false by lia. rewrite ?andb_false_r. reflexivity.
  - rewrite <- (Z2Nat.id to) by lia. apply fill_n_repeat.
Qed.

Lemma prepend_a_eq mem v n off :
  prepend_a W dflt mem v off (Z.of_nat n) = prepend W dflt mem (repeat v n) off.
Proof.
  unfold prepend_a, prepend, bsize. rewrite repeat_length.
  destruct (reserve_extra_a _ _ _ _ _ _ _ _) as [[m o]|s|]; [|reflexivity|reflexivity].
  cbv zeta. rewrite fill_n_repeat_Z, repeat_length. reflexivity.
Qed.

End Buffer.
