(* Lemmas about memory streams: streams with seed memory. *)
From Coq Require Import ZArith Bool List Lia ZifyBool.
From Verif Require Import CInt IntModel IntProofs BufferModel BufferProofs MemStreamModel MemStreamSpec MemStreamProofs ArrLib.
Import ListNotations.
Open Scope Z_scope.

Section M.
  Context {C : Type} (can_alloc : Z -> bool) (is_eof : C -> bool).
  Notation sbuf := (sbuf C).

  Definition srep (s : sbuf) (acc : list C) : Prop :=
    (exists rest, s_mem s = map Some acc ++ rest) /\ s_pptr s = Z.of_nat (length acc) /\ s_capacity s < 2 ^ 64 /\
    s_live s = (match s_block s with Some b => [b] | None => [] end) /\
    (forall b, s_block s = Some b -> (b < s_next s)%nat).

  Lemma srep_size s acc : srep s acc -> 0 <= s_pptr s <= s_capacity s.
  Proof. intros ((rest & E) & P & _). rewrite P. unfold s_capacity. rewrite E, app_length, map_length. lia. Qed.

  Lemma dealloc_ok s acc : srep s acc -> dealloc s = Some (Sbuf (s_mem s) (s_pptr s) (s_block s) [] (s_next s)).
  Proof.
    intros (_ & _ & _ & L & B). unfold dealloc. destruct s as [m p b lv nx]. cbn [s_mem s_pptr s_block s_live s_next] in *.
    destruct b as [b|]; [|now subst]. subst lv. cbn [existsb]. rewrite Nat.eqb_refl. cbn [orb remove].
    destruct (Nat.eq_dec b b); [reflexivity|congruence].
  Qed.

  (* an operation cannot be carried out for lack of memory *)
  Definition exhausted (n : Z) : Prop := 2 ^ 64 <= n \/ exists k, n <= k < 2 ^ 64 /\ can_alloc k = false.

  Lemma reserve_ok s acc n : srep s acc -> 0 <= n < 2 ^ 64 ->
    (exists s', reserve_extra can_alloc s n = Done s' /\ srep s' acc /\ n <= s_capacity s' - s_pptr s') \/
    (reserve_extra can_alloc s n = Throw s /\ exhausted (Z.of_nat (length acc) + n)).
  Proof.
    intros R Hn. pose proof (srep_size _ _ R) as Hs. unfold reserve_extra.
    destruct (Z.leb_spec n (s_capacity s - s_pptr s)); [left; exists s; split; [reflexivity|split; assumption]|].
    pose proof R as ((rest & E) & P & Cap & L & B). unfold do_reserve_extra, s_size. rewrite P.
    rewrite try_int_add_spec by (apply size_ok || (apply range_size; lia)).
    unfold add_res. rewrite rangeb_size.
    destruct ((0 <=? Z.of_nat (length acc) + n) && (Z.of_nat (length acc) + n <? 2 ^ 64)) eqn:Ea.
    2: { right. split; [reflexivity|]. left. lia. }
    change (imax t_size) with (2 ^ 64 - 1).
    destruct (suggest_spec 64 (s_capacity s) (Z.of_nat (length acc) + n) (2 ^ 64 - 1)) as (k & Ek & Bk & _);
      [lia|lia|unfold size_max; lia|].
    rewrite Ek. destruct (can_alloc k) eqn:Al.
    2: { right. split; [reflexivity|]. right. exists k. split; [lia|exact Al]. }
    left. unfold copy_n. rewrite repeat_length.
    assert (Lm : Z.of_nat (length (s_mem s)) = s_capacity s) by reflexivity.
    match goal with |- context [if ?b then _ else _] => replace b with true by lia end.
    assert (D : dealloc (Sbuf (s_mem s) (Z.of_nat (length acc)) (s_block s) (s_next s :: s_live s) (S (s_next s))) =
      Some (Sbuf (s_mem s) (Z.of_nat (length acc)) (s_block s) [s_next s] (S (s_next s)))).
    { unfold dealloc. cbn [s_mem s_pptr s_block s_live s_next]. rewrite L. destruct (s_block s) as [b|] eqn:Eb; [|reflexivity].
      specialize (B b eq_refl). cbn [existsb]. rewrite Nat.eqb_refl, orb_true_r. cbn [remove].
      destruct (Nat.eq_dec b (s_next s)); [lia|]. destruct (Nat.eq_dec b b); [reflexivity|congruence]. }
    rewrite D. eexists. split; [reflexivity|].
    cbn [Z.to_nat firstn skipn app]. rewrite Nat2Z.id.
    assert (F : firstn (length acc) (s_mem s) = map Some acc).
    { rewrite E, firstn_app, map_length, Nat.sub_diag. cbn [firstn]. rewrite app_nil_r.
      replace (length acc) with (length (map (@Some C) acc)) by apply map_length. apply firstn_all. }
    rewrite F. unfold srep, s_capacity. cbn [s_mem s_pptr s_block s_live s_next].
    rewrite app_length, skipn_length, repeat_length, map_length.
    repeat split; try lia.
    - now eexists.
    - intros b [= <-]. lia.
  Qed.

  Lemma bump_put_ptr_ok (s : sbuf) n : 0 <= s_pptr s -> 0 <= n -> s_pptr s + n <= s_capacity s ->
    bump_put_ptr s n = Some (Sbuf (s_mem s) (s_pptr s + n) (s_block s) (s_live s) (s_next s)).
  Proof.
    intros H1 H2 H3. unfold bump_put_ptr.
    destruct (pbump_while_ok (fun n => int_max <? n) (s_capacity s) 1 ltac:(lia) ltac:(intros k; lia)
      (Z.to_nat (n / int_max)) n (s_pptr s)) as (k & E & B); try lia.
    rewrite Z.mul_1_l in E. rewrite E. cbn [obind]. rewrite pbump_ok by lia. cbn [obind]. f_equal. f_equal. lia.
  Qed.

  (* storing characters at the put pointer *)
  Lemma stored s acc data mem : srep s acc ->
    mem = firstn (length acc) (s_mem s) ++ map Some data ++ skipn (length acc + length data) (s_mem s) ->
    (length acc + length data <= length (s_mem s))%nat ->
    srep (Sbuf mem (Z.of_nat (length acc) + Z.of_nat (length data)) (s_block s) (s_live s) (s_next s)) (acc ++ data).
  Proof.
    intros ((rest & E) & P & Cap & L & B) -> Hl. unfold srep, s_capacity in *. cbn [s_mem s_pptr s_block s_live s_next].
    repeat split.
    - eexists. rewrite map_app, <- app_assoc. f_equal.
      rewrite E, firstn_app, map_length, Nat.sub_diag. cbn [firstn]. rewrite app_nil_r.
      replace (length acc) with (length (map (@Some C) acc)) by apply map_length. apply firstn_all.
    - rewrite app_length. lia.
    - rewrite !app_length, firstn_length, map_length, skipn_length. lia.
    - exact L.
    - exact B.
  Qed.

  Lemma append_ok s acc data : srep s acc -> Z.of_nat (length data) < 2 ^ 63 ->
    (exists s', append can_alloc s data = Done s' /\ srep s' (acc ++ data)) \/
    (append can_alloc s data = Throw s /\ exhausted (Z.of_nat (length acc) + Z.of_nat (length data))).
  Proof.
    intros R Hd. unfold append. destruct (reserve_ok s acc (Z.of_nat (length data)) R ltac:(lia)) as [(s' & E & R' & Hc)|(E & X)];
      rewrite E; [left|right; now split].
    pose proof (srep_size _ _ R') as Hs. pose proof R' as (_ & P & _).
    assert (Lm : Z.of_nat (length (s_mem s')) = s_capacity s') by reflexivity.
    pose proof (copy_n_all (map Some data) (s_mem s') (s_pptr s')) as K. rewrite map_length in K.
    rewrite K by lia.
    rewrite bump_put_ptr_ok; unfold with_mem; cbn [s_mem s_pptr s_block s_live s_next]; try lia.
    - eexists. split; [reflexivity|]. rewrite P. apply (stored s' acc data); [exact R'| |lia].
      rewrite Nat2Z.id. reflexivity.
    - unfold s_capacity at 1. cbn [s_mem]. rewrite !app_length, firstn_length, map_length, skipn_length. lia.
  Qed.

  Lemma map_rep {A B} (f : A -> B) x n : map f (repeat x n) = repeat (f x) n.
  Proof. induction n as [|n IH]; [reflexivity|]. cbn [repeat map]. now rewrite IH. Qed.

  Lemma append_fill_ok s acc n c : srep s acc -> 0 <= n < 2 ^ 64 ->
    (exists s', append_fill can_alloc s n c = Done s' /\ srep s' (acc ++ repeat c (Z.to_nat n))) \/
    (append_fill can_alloc s n c = Throw s /\ exhausted (Z.of_nat (length acc) + n)).
  Proof.
    intros R Hd. unfold append_fill. destruct (reserve_ok s acc n R Hd) as [(s' & E & R' & Hc)|(E & X)];
      rewrite E; [left|right; now split].
    pose proof (srep_size _ _ R') as Hs. pose proof R' as (_ & P & _).
    assert (Lm : Z.of_nat (length (s_mem s')) = s_capacity s') by reflexivity.
    unfold fill_n. match goal with |- context [if ?b then _ else _] => replace b with true by lia end.
    rewrite bump_put_ptr_ok; unfold with_mem; cbn [s_mem s_pptr s_block s_live s_next]; try lia.
    - eexists. split; [reflexivity|].
      assert (Rl : n = Z.of_nat (length (repeat c (Z.to_nat n)))) by (rewrite repeat_length; lia).
      rewrite P. rewrite Rl at 3. apply (stored s' acc (repeat c (Z.to_nat n))); [exact R'| |rewrite repeat_length; lia].
      rewrite Nat2Z.id, repeat_length, map_rep. f_equal. f_equal. f_equal. lia.
    - unfold s_capacity at 1. cbn [s_mem]. rewrite !app_length, firstn_length, repeat_length, skipn_length. lia.
  Qed.

  Lemma put_ok s acc c mem : srep s acc -> s_pptr s < s_capacity s ->
    set_nth (s_mem s) (Z.to_nat (s_pptr s)) (Some c) = Some mem ->
    srep (Sbuf mem (s_pptr s + 1) (s_block s) (s_live s) (s_next s)) (acc ++ [c]).
  Proof.
    intros R Hp E. pose proof R as (_ & P & _).
    apply set_nth_inv in E. destruct E as (Hl & ->). rewrite P.
    change 1 with (Z.of_nat (length [c])). apply (stored s acc [c]); [exact R| |].
    - rewrite Nat2Z.id. cbn [map app length]. now rewrite Nat.add_1_r.
    - cbn [length]. rewrite P, Nat2Z.id in Hl. lia.
  Qed.

  Lemma sputc_s_ok s acc c : srep s acc -> is_eof c = false ->
    (exists s', s_sputc can_alloc is_eof s c = Done s' /\ srep s' (acc ++ [c])) \/
    (s_sputc can_alloc is_eof s c = Throw s /\ exhausted (Z.of_nat (length acc) + 1)).
  Proof.
    intros R Hc. unfold s_sputc. pose proof (srep_size _ _ R) as Hs. destruct (Z.ltb_spec (s_pptr s) (s_capacity s)).
    - left. destruct (set_nth (s_mem s) (Z.to_nat (s_pptr s)) (Some c)) as [mem|] eqn:E.
      + eexists. split; [reflexivity|]. now apply (put_ok s acc c).
      + rewrite set_nth_some in E by (unfold s_capacity in *; lia). discriminate.
    - rewrite Hc. unfold overflow.
      destruct (reserve_ok s acc 1 R ltac:(lia)) as [(s' & E & R' & Hc')|(E & X)]; rewrite E; [left|right; now split].
      pose proof (srep_size _ _ R') as Hs'.
      destruct (set_nth (s_mem s') (Z.to_nat (s_pptr s')) (Some c)) as [mem|] eqn:E2.
      + cbn [obind]. pose proof (set_nth_length _ _ _ _ E2) as Ln. rewrite pbump_ok.
        * eexists. split; [reflexivity|]. unfold with_mem. cbn [s_mem s_pptr s_block s_live s_next].
          apply (put_ok s' acc c); [exact R'|lia|exact E2].
        * unfold with_mem, s_capacity in *. cbn [s_mem s_pptr]. lia.
      + rewrite set_nth_some in E2 by (unfold s_capacity in *; lia). discriminate.
  Qed.

  Definition no_eof (op : sop C) : Prop := match op with Sputc c => is_eof c = false | _ => True end.

  (* amount of room that an operation needs *)
  Definition room (op : sop C) : Z :=
    match op with Reserve n => n | _ => Z.of_nat (length (added op)) end.

  Lemma s_step_ok s acc op : srep s acc -> sop_ok op -> no_eof op ->
    (exists s', s_step can_alloc is_eof s op = Done s' /\
      srep s' (match op with Clear => [] | _ => acc ++ added op end)) \/
    (s_step can_alloc is_eof s op = Throw s /\ op <> Clear /\ exhausted (Z.of_nat (length acc) + room op)).
  Proof.
    intros R Ho He. destruct op as [c|str|str|n c|n|]; cbn [s_step added room length].
    - destruct (sputc_s_ok s acc c R He) as [H|(E & X)]; [left; exact H|right]. split; [exact E|split; [discriminate|exact X]].
    - destruct (append_ok s acc str R Ho) as [H|(E & X)]; [left; exact H|right]. split; [exact E|split; [discriminate|exact X]].
    - destruct (append_ok s acc str R Ho) as [H|(E & X)]; [left; exact H|right]. split; [exact E|split; [discriminate|exact X]].
    - destruct (append_fill_ok s acc n c R Ho) as [H|(E & X)]; [left; exact H|right].
      split; [exact E|]. split; [discriminate|]. rewrite repeat_length. cbn in Ho. now replace (Z.of_nat (Z.to_nat n)) with n by lia.
    - destruct (reserve_ok s acc n R Ho) as [(s' & E & R' & _)|(E & X)]; [left|right; split; [exact E|split; [discriminate|exact X]]].
      exists s'. rewrite app_nil_r. now split.
    - left. eexists. split; [reflexivity|]. destruct R as ((rest & E) & P & Cap & L & B).
      unfold clear_contents, srep. cbn [s_mem s_pptr s_block s_live s_next]. repeat split; try assumption. now eexists.
  Qed.

  Lemma s_run_ok : forall ops s acc, srep s acc -> Forall sop_ok ops -> Forall no_eof ops ->
    exists threw s', s_run can_alloc is_eof s ops = Some (threw, s') /\ length threw = length ops /\
      srep s' (contents acc ops threw).
  Proof.
    induction ops as [|op ops IH]; intros s acc R H1 H2; [exists [], s; split; [reflexivity|split; [reflexivity|exact R]]|].
    inversion H1; inversion H2; subst. cbn [s_run].
    destruct (s_step_ok s acc op R) as [(s1 & E & R1)|(E & Hc & _)]; try assumption; rewrite E.
    - destruct (IH s1 _ R1) as (threw & s2 & E2 & L2 & R2); try assumption. rewrite E2. cbn [obind].
      exists (false :: threw), s2. split; [reflexivity|]. split; [cbn; lia|]. destruct op; exact R2.
    - destruct (IH s _ R) as (threw & s2 & E2 & L2 & R2); try assumption. rewrite E2. cbn [obind].
      exists (true :: threw), s2. split; [reflexivity|]. split; [cbn; lia|]. destruct op; try exact R2. congruence.
  Qed.

  (* capacity is never lost *)
  Lemma reserve_cap s acc n : srep s acc -> 0 <= n < 2 ^ 64 ->
    match reserve_extra can_alloc s n with
    | Done s' => s_capacity s <= s_capacity s'
    | Throw _ => s_capacity s < Z.of_nat (length acc) + n
    | UB => True
    end.
  Proof.
    intros R Hn. pose proof R as (_ & P & _). destruct (Z.leb_spec n (s_capacity s - s_pptr s)) as [G|G].
    - unfold reserve_extra. replace (n <=? s_capacity s - s_pptr s) with true by lia. lia.
    - destruct (reserve_ok s acc n R Hn) as [(s' & E & (_ & P' & _) & Hc)|(E & _)]; rewrite E; lia.
  Qed.

  Lemma bump_mem (s s' : sbuf) n : bump_put_ptr s n = Some s' -> s_capacity s' = s_capacity s.
  Proof.
    unfold bump_put_ptr. destruct (pbump_while _ _ _ _ _ _) as [[p k]|]; cbn [obind]; [|discriminate]. destruct (pbump _ p k); cbn [obind]; [|discriminate]. now intros [= <-].
  Qed.

  Lemma append_cap s acc data : srep s acc -> Z.of_nat (length data) < 2 ^ 63 ->
    match append can_alloc s data with
    | Done s' => s_capacity s <= s_capacity s'
    | Throw _ => s_capacity s < Z.of_nat (length acc) + Z.of_nat (length data)
    | UB => True
    end.
  Proof.
    intros R Hd. pose proof (reserve_cap s acc (Z.of_nat (length data)) R ltac:(lia)) as H. unfold append.
    destruct (reserve_ok s acc (Z.of_nat (length data)) R ltac:(lia)) as [(s1 & E & R1 & Hc)|(E & _)]; rewrite E in *; [|exact H].
    pose proof (srep_size _ _ R1) as Hs. assert (Lm : Z.of_nat (length (s_mem s1)) = s_capacity s1) by reflexivity.
    pose proof (copy_n_all (map Some data) (s_mem s1) (s_pptr s1)) as K. rewrite map_length in K. rewrite K by lia.
    match goal with |- context [bump_put_ptr ?x ?y] => destruct (bump_put_ptr x y) as [s'|] eqn:B end; [|exact I]. apply bump_mem in B. rewrite B.
    unfold s_capacity at 2, with_mem. cbn [s_mem]. rewrite !app_length, firstn_length, map_length, skipn_length. lia.
  Qed.

  Lemma append_fill_cap s acc n c : srep s acc -> 0 <= n < 2 ^ 64 ->
    match append_fill can_alloc s n c with
    | Done s' => s_capacity s <= s_capacity s'
    | Throw _ => s_capacity s < Z.of_nat (length acc) + n
    | UB => True
    end.
  Proof.
    intros R Hd. pose proof (reserve_cap s acc n R Hd) as H. unfold append_fill.
    destruct (reserve_ok s acc n R Hd) as [(s1 & E & R1 & Hc)|(E & _)]; rewrite E in *; [|exact H].
    pose proof (srep_size _ _ R1) as Hs. assert (Lm : Z.of_nat (length (s_mem s1)) = s_capacity s1) by reflexivity.
    unfold fill_n. match goal with |- context [if ?b then _ else _] => replace b with true by lia end.
    match goal with |- context [bump_put_ptr ?x ?y] => destruct (bump_put_ptr x y) as [s'|] eqn:B end; [|exact I]. apply bump_mem in B. rewrite B.
    unfold s_capacity at 2, with_mem. cbn [s_mem]. rewrite !app_length, firstn_length, repeat_length, skipn_length. lia.
  Qed.

  Lemma sputc_cap s acc c : srep s acc -> is_eof c = false ->
    match s_sputc can_alloc is_eof s c with
    | Done s' => s_capacity s <= s_capacity s'
    | Throw _ => s_capacity s < Z.of_nat (length acc) + 1
    | UB => True
    end.
  Proof.
    intros R Hc. unfold s_sputc. pose proof (srep_size _ _ R) as Hs. destruct (Z.ltb_spec (s_pptr s) (s_capacity s)).
    - destruct (set_nth (s_mem s) (Z.to_nat (s_pptr s)) (Some c)) as [mem|] eqn:E; [|exact I]. pose proof (set_nth_length _ _ _ _ E). unfold s_capacity. cbn [s_mem]. lia.
    - rewrite Hc. pose proof (reserve_cap s acc 1 R ltac:(lia)) as H1. unfold overflow. destruct (reserve_extra can_alloc s 1) as [s1|s1|]; [|exact H1|exact I].
      destruct (set_nth (s_mem s1) (Z.to_nat (s_pptr s1)) (Some c)) as [mem|] eqn:E2; cbn [obind]; [|exact I]. pose proof (set_nth_length _ _ _ _ E2) as Ln.
      unfold with_mem. cbn [s_mem s_pptr s_block s_live s_next]. destruct (pbump _ _ 1); [|exact I]. unfold s_capacity in *. cbn [s_mem]. lia.
  Qed.

  Lemma s_step_cap s acc op : srep s acc -> sop_ok op -> no_eof op ->
    match s_step can_alloc is_eof s op with
    | Done s' => s_capacity s <= s_capacity s' /\ Z.of_nat (length acc) + room op <= s_capacity s'
    | Throw _ => s_capacity s < Z.of_nat (length acc) + room op
    | UB => True
    end.
  Proof.
    intros R Ho He.
    assert (M : match s_step can_alloc is_eof s op with Done s' => s_capacity s <= s_capacity s' | Throw _ => s_capacity s < Z.of_nat (length acc) + room op | UB => True end).
    { destruct op as [c|str|str|n c|n|]; cbn [s_step added room length].
      - apply sputc_cap; assumption.
      - apply append_cap; assumption.
      - apply append_cap; assumption.
      - rewrite repeat_length. cbn in Ho. replace (Z.of_nat (Z.to_nat n)) with n by lia. apply append_fill_cap; assumption.
      - apply reserve_cap; assumption.
      - unfold s_capacity, clear_contents. cbn [s_mem]. lia. }
    destruct (s_step_ok s acc op R Ho He) as [(s' & E & R')|(E & _)]; rewrite E in *; [|exact M]. split; [exact M|].
    pose proof (srep_size _ _ R') as Hs. destruct R' as (_ & P' & _). destruct op as [c|str|str|n c|n|]; cbn [added room] in *; try (rewrite app_length in P'; lia).
    - cbn [s_step] in E. destruct (reserve_ok s acc n R Ho) as [(s2 & E2 & (_ & P2 & _) & Hc)|(E2 & _)]; rewrite E2 in E; [|discriminate]. injection E as <-. lia.
    - pose proof (srep_size _ _ R) as Hs0. destruct R as (_ & P & _). cbn [length]. lia.
  Qed.

  Lemma srep_view s acc : srep s acc -> s_view s = map Some acc.
  Proof.
    intros ((rest & E) & P & _). unfold s_view, s_size. rewrite P, E, Nat2Z.id.
    rewrite firstn_app, map_length, Nat.sub_diag. cbn [firstn]. rewrite app_nil_r.
    replace (length acc) with (length (map (@Some C) acc)) by apply map_length. apply firstn_all.
  Qed.

  Lemma srep_destroy s acc : srep s acc -> s_destroy s = Some [].
  Proof. intros R. unfold s_destroy. rewrite (dealloc_ok s acc R). reflexivity. Qed.
End M.
