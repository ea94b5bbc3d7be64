(* What the positions automaton accepts *)
From Coq Require Import ZArith Bool List Arith Lia Sorted.
From Verif Require Import ArrLib StringMatcherModel StringMatcherSpec StringMatcherProofs StringMatcherProofs2 WordWrapProofs2.
Import ListNotations.
Open Scope nat_scope.

Definition final (n : nfa) (x k : nat) : Prop :=
  exists s, nth_error (fst n) x = Some s /\ slot_single s = false /\ slot_followpos s = 0 /\ slot_pattern_index s = k.
Definition sym_match (s : symbol) (ch : Z) : Prop := match s with SCharacter c => c = ch | SWildcard => True end.
Fixpoint acc (n : nfa) (k : nat) (x : nat) (s : list Z) : Prop :=
  match s with
  | [] => final n x k
  | ch :: s => exists sl y, nth_error (fst n) x = Some sl /\ sym_match (slot_symbol sl) ch /\ follow n x y /\ acc n k y s
  end.

Lemma final_no_follow n x k : wf n ->
  (final n x k <-> exists s, nth_error (fst n) x = Some s /\ slot_pattern_index s = k /\ forall y, ~ follow n x y).
Proof.
  intros W. split.
  - intros (s & H1 & H2 & H3 & H4). exists s. split; [assumption|]. split; [assumption|].
    intros y (t & Ht & F). rewrite H1 in Ht. injection Ht as <-. unfold in_follow in F. rewrite H2, H3, (wf_zero _ W) in F.
    destruct F as (set & E & F). injection E as <-. destruct F.
  - intros (s & H1 & H2 & H3). exists s. split; [assumption|].
    destruct (slot_single s) eqn:E.
    + exfalso. apply (H3 (slot_followpos s)). exists s. split; [assumption|]. unfold in_follow. now rewrite E.
    + split; [reflexivity|]. split; [|assumption]. destruct (slot_followpos s) as [|i] eqn:Ef; [reflexivity|]. exfalso.
      pose proof (wf_index _ W _ _ H1 E) as L. rewrite Ef in L. destruct (nth_some _ _ L) as [set Hset].
      destruct (wf_sets _ W _ _ Hset) as [_ N]. destruct set as [|y set]; [congruence|].
      apply (H3 y). exists s. split; [assumption|]. unfold in_follow. rewrite E, Ef. exists (y :: set). split; [assumption|left; reflexivity].
Qed.

Fixpoint size (pats : list (list Z * Z)) : nat :=
  match pats with [] => 0 | (p, _) :: pats => S (length p) + size pats end.
Fixpoint locate (pats : list (list Z * Z)) (x : nat) : option (nat * list Z * nat) :=
  match pats with
  | [] => None
  | (p, _) :: pats =>
    if x <=? length p then Some (0, p, x)
    else match locate pats (x - S (length p)) with Some (k, q, j) => Some (S k, q, j) | None => None end
  end.

Lemma size_app a b : size (a ++ b) = size a + size b.
Proof. induction a as [|[p i] a IH]; cbn; [reflexivity|]. rewrite IH. lia. Qed.

Lemma locate_snoc pats q id x : locate (pats ++ [(q, id)]) x =
  if x <? size pats then locate pats x
  else if x - size pats <=? length q then Some (length pats, q, x - size pats) else None.
Proof.
  revert x. induction pats as [|[p i] pats IH]; intros x; cbn [locate app size length].
  - rewrite Nat.sub_0_r. cbn. reflexivity.
  - destruct (Nat.leb_spec x (length p)).
    + destruct (Nat.ltb_spec x (S (length p) + size pats)); [reflexivity|lia].
    + rewrite IH. destruct (Nat.ltb_spec (x - S (length p)) (size pats)), (Nat.ltb_spec x (S (length p) + size pats)); try lia; [reflexivity|].
      replace (x - S (length p) - size pats) with (x - (S (length p) + size pats)) by lia.
      destruct (x - (S (length p) + size pats) <=? length q); reflexivity.
Qed.

Lemma locate_some pats x : x < size pats -> exists k p j, locate pats x = Some (k, p, j).
Proof.
  revert x. induction pats as [|[p i] pats IH]; intros x; cbn [locate size]; [lia|]. intros H.
  destruct (Nat.leb_spec x (length p)); [eauto|]. destruct (IH (x - S (length p))) as (k & q & j & ->); [lia|]. eauto.
Qed.
Lemma locate_lt pats x k p j : locate pats x = Some (k, p, j) -> x < size pats.
Proof.
  revert x k. induction pats as [|[q i] pats IH]; intros x k; cbn [locate size]; [discriminate|].
  destruct (Nat.leb_spec x (length q)); [lia|]. destruct (locate pats (x - S (length q))) as [[[k' p'] j']|] eqn:E; [|discriminate].
  intros H'. injection H' as <- <- <-. apply IH in E. lia.
Qed.
Lemma locate_at pats x k p j : locate pats x = Some (k, p, j) <->
  nth_error (map fst pats) k = Some p /\ j <= length p /\ x = size (firstn k pats) + j.
Proof.
  revert x k. induction pats as [|[q i] pats IH]; intros x k; cbn [locate map fst].
  - split; [discriminate|]. intros [H _]. destruct k; discriminate.
  - destruct (Nat.leb_spec x (length q)).
    + split.
      * intros H'. injection H' as <- <- <-. cbn. auto.
      * intros (H1 & H2 & H3). destruct k as [|k]; cbn in *; [|lia]. congruence.
    + specialize (IH (x - S (length q))). destruct k as [|k]; cbn [nth_error firstn size].
      * split; [destruct (locate pats (x - S (length q))) as [[[? ?] ?]|]; intros H'; discriminate|].
        intros (H1 & H2 & H3). injection H1 as ->. cbn in H3. lia.
      * specialize (IH k). destruct (locate pats (x - S (length q))) as [[[k' p'] j']|].
        -- split.
           ++ intros H'. injection H' as <- <- <-. destruct (proj1 IH eq_refl) as (H1 & H2 & H3). split; [assumption|]. split; [assumption|]. lia.
           ++ intros (H1 & H2 & H3). assert (E : Some (k', p', j') = Some (k, p, j)) by (apply IH; split; [assumption|]; split; [assumption|]; lia).
              congruence.
        -- split; [discriminate|]. intros (H1 & H2 & H3).
           assert (E : None = Some (k, p, j)) by (apply IH; split; [assumption|]; split; [assumption|]; lia). discriminate.
Qed.
Lemma locate_base pats k p : nth_error (map fst pats) k = Some p -> forall j, j <= length p -> locate pats (size (firstn k pats) + j) = Some (k, p, j).
Proof. intros H j Hj. apply locate_at. auto. Qed.

Lemma locate_mono pats x y k p j k' p' j' : locate pats x = Some (k, p, j) -> locate pats y = Some (k', p', j') -> x <= y -> k <= k'.
Proof.
  revert x y k k'. induction pats as [|[q i] pats IH]; intros x y k k'; cbn [locate]; [discriminate|].
  destruct (Nat.leb_spec x (length q)); [intros H1; injection H1 as <- <- <-; lia|].
  destruct (Nat.leb_spec y (length q)); [lia|].
  destruct (locate pats (x - S (length q))) as [[[k1 p1] j1]|] eqn:E1; [|discriminate].
  destruct (locate pats (y - S (length q))) as [[[k2 p2] j2]|] eqn:E2; [|discriminate].
  intros H1 H2 H3. injection H1 as <- -> ->. injection H2 as <- -> ->.
  specialize (IH _ _ _ _ E1 E2 ltac:(lia)). lia.
Qed.

Section P.
Variable star : Z.

Record binv (b : builder) (pats : list (list Z * Z)) : Prop := {
  bi_patterns : b_patterns b = map snd pats;
  bi_wf : wf (b_nfa b);
  bi_sorted : sorted (b_start b);
  bi_length : length (fst (b_nfa b)) = size pats;
  bi_info : forall x, nth_error (info (b_nfa b)) x =
    match locate pats x with Some (k, p, j) => Some (k, nth j (map (sym star) p) (SCharacter 0)) | None => None end;
  bi_follow : forall x y, follow (b_nfa b) x y <->
    exists k p i j, locate pats x = Some (k, p, i) /\ locate pats y = Some (k, p, j) /\ link star p i j;
  bi_start : forall x, In x (b_start b) <-> exists k p j, locate pats x = Some (k, p, j) /\ allst star p 0 j
}.

Lemma binv_new : binv new_builder [].
Proof.
  constructor; cbn; try reflexivity.
  - constructor; cbn; try reflexivity.
    + intros [|i] set; discriminate.
    + intros [|p] s; discriminate.
    + intros [|p] q s t; discriminate.
  - constructor.
  - destruct x; reflexivity.
  - intros x y. split.
    + intros (s & H & _). destruct x; discriminate.
    + intros (? & ? & ? & ? & H & _). discriminate.
  - intros x. split; [intros []|]. intros (? & ? & ? & H & _). discriminate.
Qed.

Lemma link_le l i j : link star l i j -> i <= length l /\ j <= length l.
Proof. intros (H1 & H2 & _). lia. Qed.

Lemma binv_add b pats p ident : binv b pats -> exists b', add_pattern star b p ident = Some b' /\ binv b' (pats ++ [(p, ident)]).
Proof.
  intros [B1 B2 B3 B4 B5 B6 B7].
  destruct (add_pattern_spec star b p ident B2 B3) as (b' & E & P1 & P2 & P3 & P4 & P5 & P6). exists b'. split; [exact E|].
  set (n := b_nfa b) in *. set (k := length (b_patterns b)) in *.
  assert (Ek : k = length pats) by (unfold k; rewrite B1; apply map_length).
  assert (Hold : forall x v, locate pats x = Some v -> locate (pats ++ [(p, ident)]) x = Some v).
  { intros x [[k1 p1] j1] H. rewrite locate_snoc. pose proof (locate_lt _ _ _ _ _ H). destruct (Nat.ltb_spec x (size pats)); [assumption|lia]. }
  assert (Hnew : forall j, j <= length p -> locate (pats ++ [(p, ident)]) (size pats + j) = Some (k, p, j)).
  { intros j Hj. rewrite locate_snoc. destruct (Nat.ltb_spec (size pats + j) (size pats)); [lia|].
    replace (size pats + j - size pats) with j by lia. destruct (Nat.leb_spec j (length p)); [now rewrite Ek|lia]. }
  assert (Hinv : forall x k1 p1 j1, locate (pats ++ [(p, ident)]) x = Some (k1, p1, j1) ->
    locate pats x = Some (k1, p1, j1) \/ (k1 = k /\ p1 = p /\ x = size pats + j1 /\ j1 <= length p)).
  { intros x k1 p1 j1. rewrite locate_snoc. destruct (Nat.ltb_spec x (size pats)); [auto|].
    destruct (Nat.leb_spec (x - size pats) (length p)); [|discriminate]. intros H'. injection H' as <- <- <-. right. rewrite Ek. repeat split; lia. }
  assert (Hk : forall x k1 p1 j1, locate pats x = Some (k1, p1, j1) -> k1 < k).
  { intros x k1 p1 j1 H. apply locate_at in H. destruct H as (H & _). apply nth_lt in H. rewrite map_length in H. lia. }
  constructor.
  - rewrite P1, B1, map_app. reflexivity.
  - assumption.
  - assumption.
  - rewrite <- info_length, P4, !app_length, info_length, map_length, B4, size_app. cbn. lia.
  - intros x. rewrite P4, locate_snoc. destruct (Nat.ltb_spec x (size pats)) as [Hx|Hx].
    + rewrite nth_error_app1 by (rewrite info_length; lia). apply B5.
    + rewrite nth_error_app2 by (rewrite info_length; lia). rewrite info_length, B4.
      destruct (Nat.leb_spec (x - size pats) (length p)) as [Hj|Hj].
      * rewrite <- Ek. set (j := x - size pats) in *. destruct (Nat.eq_dec j (length p)) as [->|Hne].
        -- rewrite nth_error_app2 by (rewrite map_length; lia). rewrite map_length, Nat.sub_diag. cbn.
           rewrite nth_overflow by (rewrite map_length; lia). reflexivity.
        -- rewrite nth_error_app1 by (rewrite map_length; lia). rewrite nth_error_map.
           destruct (nth_some p j ltac:(lia)) as [c Hc]. rewrite Hc. cbn. f_equal. f_equal. symmetry.
           apply nth_error_nth. rewrite nth_error_map, Hc. reflexivity.
      * apply nth_error_None. rewrite app_length, map_length. cbn. lia.
  - intros x y. rewrite P5, B4, B6. split.
    + intros [(k1 & p1 & i & j & H1 & H2 & H3)|(i & j & -> & -> & H)].
      * exists k1, p1, i, j. auto.
      * exists k, p, i, j. destruct (link_le _ _ _ H). auto.
    + intros (k1 & p1 & i & j & H1 & H2 & H3). apply Hinv in H1, H2.
      destruct H1 as [H1|(E1 & Ep1 & Ex & _)], H2 as [H2|(E2 & Ep2 & Ey & _)].
      * left. exists k1, p1, i, j. auto.
      * apply Hk in H1. lia.
      * apply Hk in H2. lia.
      * right. exists i, j. subst p1. auto.
  - intros x. rewrite P6, B4, B7. split.
    + intros [(k1 & p1 & j & H1 & H2)|(j & -> & Hj & H)]; [exists k1, p1, j; auto|exists k, p, j; auto].
    + intros (k1 & p1 & j & H1 & H2). apply Hinv in H1. destruct H1 as [H1|(-> & -> & -> & ?)]; [left; exists k1, p1, j; auto|right; exists j; auto].
Qed.

Lemma binv_adds pats : forall b pre, binv b pre -> exists b', add_patterns star b pats = Some b' /\ binv b' (pre ++ pats).
Proof.
  induction pats as [|[p id] pats IH]; intros b pre H; cbn [add_patterns].
  - exists b. rewrite app_nil_r. auto.
  - destruct (binv_add b pre p id H) as (b1 & -> & H1). cbn [obind]. destruct (IH b1 _ H1) as (b2 & E & H2).
    exists b2. rewrite <- app_assoc in H2. auto.
Qed.

(* semantics *)
Lemma matches_stars p : forall i j s, i <= j -> allst star p i j -> matches star (skipn j p) s -> matches star (skipn i p) s.
Proof.
  intros i j s Hij. remember (j - i) as d eqn:Ed. revert i Hij Ed. induction d as [|d IH]; intros i Hij Ed Ha Hm.
  - replace i with j by lia. assumption.
  - assert (Hi : st star p i) by (apply Ha; lia). unfold st in Hi.
    assert (Es : skipn i p = star :: skipn (S i) p).
    { clear - Hi. revert i Hi. induction p as [|c p IH]; intros [|i] Hi; cbn in *; try discriminate; [congruence|]. now rewrite IH. }
    rewrite Es. apply (matches_star star _ [] s). apply IH; try lia; [|assumption]. intros k Hk. apply Ha. lia.
Qed.

Lemma skipn_nth (p : list Z) i c : nth_error p i = Some c -> skipn i p = c :: skipn (S i) p.
Proof. revert i. induction p as [|d p IH]; intros [|i] Hi; cbn in *; try discriminate; [congruence|]. now rewrite IH. Qed.

Lemma matches_inv_star p s : matches star (star :: p) s -> matches star p s \/ exists c s', s = c :: s' /\ matches star (star :: p) s'.
Proof.
  intros H. inversion H as [|c ? ? Hc|? s1 s2 Hm]; subst; [contradiction|]. destruct s1 as [|c s1]; [auto|].
  right. exists c, (s1 ++ s2). split; [reflexivity|]. now constructor.
Qed.
Lemma matches_inv_char c p s : c <> star -> matches star (c :: p) s -> exists s', s = c :: s' /\ matches star p s'.
Proof. intros Hc H. inversion H; subst; [eauto|contradiction]. Qed.
Lemma matches_cons_star p c s : matches star (star :: p) s -> matches star (star :: p) (c :: s).
Proof. intros H. inversion H as [|d ? ? Hd|? s1 s2 Hm]; subst; [contradiction|]. apply (matches_star star p (c :: s1) s2 Hm). Qed.

Section Sem.
Variables (b : builder) (pats : list (list Z * Z)) (B : binv b pats).
Notation n := (b_nfa b).

Lemma slot_at x k p j : locate pats x = Some (k, p, j) ->
  exists sl, nth_error (fst n) x = Some sl /\ slot_pattern_index sl = k /\ slot_symbol sl = nth j (map (sym star) p) (SCharacter 0).
Proof.
  intros H. pose proof (bi_info _ _ B x) as E. rewrite H in E. unfold info in E. rewrite nth_error_map in E.
  destruct (nth_error (fst n) x) as [sl|]; [|discriminate]. cbn in E. injection E as E1 E2. eauto.
Qed.
Lemma slot_inv x sl : nth_error (fst n) x = Some sl -> exists p j, locate pats x = Some (slot_pattern_index sl, p, j).
Proof.
  intros H. pose proof (bi_info _ _ B x) as E. unfold info in E. rewrite nth_error_map, H in E. cbn in E.
  destruct (locate pats x) as [[[k p] j]|]; [|discriminate]. injection E as -> _. eauto.
Qed.

Lemma final_at x k : final n x k <-> exists p, locate pats x = Some (k, p, length p).
Proof.
  rewrite (final_no_follow _ _ _ (bi_wf _ _ B)). split.
  - intros (s & H1 & <- & H3). destruct (slot_inv _ _ H1) as (p & j & Hl). exists p.
    assert (j <= length p) by (apply locate_at in Hl; tauto). destruct (Nat.eq_dec j (length p)) as [->|Hj]; [assumption|]. exfalso.
    apply (H3 (S x)). apply (bi_follow _ _ B). exists (slot_pattern_index s), p, j, (S j). split; [assumption|]. split.
    + apply locate_at in Hl. apply locate_at. destruct Hl as (? & ? & ?). split; [assumption|]. split; lia.
    + split; [lia|]. split; [lia|]. right. split; [lia|]. apply allst_nil. lia.
  - intros (p & H). destruct (slot_at _ _ _ _ H) as (sl & H1 & H2 & _). exists sl. split; [assumption|]. split; [assumption|].
    intros y F. apply (bi_follow _ _ B) in F. destruct F as (k' & p' & i & j & E & _ & (L & _)). rewrite H in E. injection E as <- <- <-. lia.
Qed.

Lemma acc_pattern s : forall k x, acc n k x s -> exists p j, locate pats x = Some (k, p, j).
Proof.
  induction s as [|ch s IH]; intros k x; cbn [acc].
  - intros H. apply final_at in H. destruct H as (p & H). eauto.
  - intros (sl & y & H1 & H2 & H3 & H4). apply IH in H4. destruct H4 as (p & j & H4). apply (bi_follow _ _ B) in H3.
    destruct H3 as (k' & p' & i & j' & E1 & E2 & _). rewrite H4 in E2. injection E2 as <- <- <-. eauto.
Qed.

Lemma acc_sem k p : nth_error (map fst pats) k = Some p -> let base := size (firstn k pats) in
  forall s i, i <= length p ->
  (matches star (skipn i p) s <-> exists j, i <= j <= length p /\ allst star p i j /\ acc n k (base + j) s).
Proof.
  intros Hk base. pose proof (locate_base _ _ _ Hk) as HL. fold base in HL.
  induction s as [|ch s IH]; intros i Hi; cbn [acc].
  - split.
    + intros H. exists (length p). split; [lia|]. split; [|apply final_at; exists p; apply HL; lia].
      revert H. remember (length p - i) as d eqn:Ed. revert i Hi Ed. induction d as [|d IHd]; intros i Hi Ed H; [apply allst_nil; lia|].
      destruct (nth_some p i ltac:(lia)) as [c Hc]. rewrite (skipn_nth _ _ _ Hc) in H.
      assert (c = star). { destruct (Z.eq_dec c star); [assumption|]. apply matches_inv_char in H; [|assumption]. destruct H as (? & ? & _). discriminate. }
      subst c. apply matches_inv_star in H. destruct H as [H|(? & ? & ? & _)]; [|discriminate].
      specialize (IHd (S i) ltac:(lia) ltac:(lia) H). intros q Hq. destruct (Nat.eq_dec q i) as [->|]; [exact Hc|]. apply IHd. lia.
    + intros (j & Hj & Ha & Hf). apply final_at in Hf. destruct Hf as (q & Hf). rewrite HL in Hf by lia. injection Hf as <- ->.
      apply (matches_stars p i (length p)); [lia|assumption|]. rewrite skipn_all. constructor.
  - split.
    + intros H. revert H. remember (length p - i) as d eqn:Ed. revert i Hi Ed. induction d as [|d IHd]; intros i Hi Ed H.
      { replace i with (length p) in H by lia. rewrite skipn_all in H. inversion H. }
      destruct (nth_some p i ltac:(lia)) as [c Hc]. rewrite (skipn_nth _ _ _ Hc) in H.
      destruct (slot_at _ _ _ _ (HL i ltac:(lia))) as (sl & S1 & S2 & S3).
      assert (Es : slot_symbol sl = sym star c).
      { rewrite S3. apply nth_error_nth. rewrite nth_error_map, Hc. reflexivity. }
      assert (Hlink : forall j, i <= j <= length p -> link star p i j -> acc n k (base + j) s -> sym_match (sym star c) ch ->
        exists j0, i <= j0 <= length p /\ allst star p i j0 /\ exists sl0 y, nth_error (fst n) (base + j0) = Some sl0 /\
          sym_match (slot_symbol sl0) ch /\ follow n (base + j0) y /\ acc n k y s).
      { intros j Hj Hlk Hacc Hsym. exists i. split; [lia|]. split; [apply allst_nil; lia|]. exists sl, (base + j). split; [assumption|].
        split; [now rewrite Es|]. split; [|assumption]. apply (bi_follow _ _ B). exists k, p, i, j. split; [apply HL; lia|]. split; [apply HL; lia|assumption]. }
      destruct (Z.eq_dec c star) as [->|Hcs].
      * apply matches_inv_star in H. destruct H as [H|(c' & s' & E & H)].
        -- destruct (IHd (S i) ltac:(lia) ltac:(lia) H) as (j0 & Hj0 & Ha & R). exists j0. split; [lia|]. split; [|assumption].
           intros q Hq. destruct (Nat.eq_dec q i) as [->|]; [exact Hc|]. apply Ha. lia.
        -- injection E as <- <-. rewrite <- (skipn_nth _ _ _ Hc) in H. apply (IH i Hi) in H. destruct H as (j & Hj & Ha & Hacc).
           apply (Hlink j); auto.
           ++ split; [lia|]. split; [lia|]. destruct (Nat.eq_dec i j) as [->|]; [left; auto|]. right. split; [lia|]. intros q Hq. apply Ha. lia.
           ++ unfold sym. rewrite Z.eqb_refl. exact I.
      * apply matches_inv_char in H; [|assumption]. destruct H as (s' & E & H). injection E as <- <-.
        apply (IH (S i) ltac:(lia)) in H. destruct H as (j & Hj & Ha & Hacc). apply (Hlink j); auto; [lia| |].
        -- split; [lia|]. split; [lia|]. right. split; [lia|]. assumption.
        -- unfold sym. destruct (Z.eqb_spec ch star); [contradiction|reflexivity].
    + intros (j & Hj & Ha & sl & y & S1 & S2 & F & Hacc). apply (bi_follow _ _ B) in F.
      destruct F as (k' & p' & i' & j' & E1 & E2 & Hlk). rewrite HL in E1 by lia. injection E1 as <- <- <-.
      apply locate_at in E2. destruct E2 as (_ & Hj' & ->). fold base in Hacc.
      destruct (slot_at _ _ _ _ (HL j ltac:(lia))) as (sl' & S1' & _ & S3). rewrite S1 in S1'. injection S1' as <-.
      destruct Hlk as (Hjl & _ & Hlk). destruct (nth_some p j Hjl) as [c Hc].
      assert (Es : slot_symbol sl = sym star c). { rewrite S3. apply nth_error_nth. rewrite nth_error_map, Hc. reflexivity. }
      rewrite Es in S2. apply (matches_stars p i j); [lia|assumption|].
      destruct Hlk as [[<- Hs]|[Hlt Hs]].
      * unfold st in Hs. rewrite Hc in Hs. injection Hs as ->. rewrite (skipn_nth _ _ _ Hc). apply matches_cons_star.
        rewrite <- (skipn_nth _ _ _ Hc). apply IH; [lia|]. exists j. split; [lia|]. split; [apply allst_nil; lia|assumption].
      * assert (Hm : matches star (skipn (S j) p) s). { apply IH; [lia|]. exists j'. split; [lia|]. auto. }
        rewrite (skipn_nth _ _ _ Hc). unfold sym in S2. destruct (Z.eqb_spec c star) as [Ec|Hcs].
        -- rewrite Ec. apply matches_cons_star. apply (matches_star star _ [] s Hm).
        -- cbn in S2. rewrite S2 in *. now constructor.
Qed.

Lemma start_sem k p s : nth_error (map fst pats) k = Some p ->
  (matches star p s <-> exists x, In x (b_start b) /\ acc n k x s).
Proof.
  intros Hk. pose proof (acc_sem k p Hk s 0 ltac:(lia)) as H. cbn [skipn] in H. rewrite H. split.
  - intros (j & Hj & Ha & R). exists (size (firstn k pats) + j). split; [|assumption]. apply (bi_start _ _ B). exists k, p, j. split; [|assumption].
    apply locate_base; [assumption|lia].
  - intros (x & Hx & R). destruct (acc_pattern _ _ _ R) as (p' & j & Hl). apply (bi_start _ _ B) in Hx. destruct Hx as (k2 & p2 & j2 & E & Ha).
    rewrite Hl in E. injection E as <- <- <-. apply locate_at in Hl. destruct Hl as (Hk' & Hj & ->). rewrite Hk in Hk'. injection Hk' as <-.
    exists j. split; [lia|]. auto.
Qed.

Lemma final_mono x y k k' : final n x k -> final n y k' -> x < y -> k < k'.
Proof.
  intros H1 H2 Hxy. apply final_at in H1, H2. destruct H1 as (p & H1), H2 as (q & H2).
  pose proof (locate_mono _ _ _ _ _ _ _ _ _ H1 H2 ltac:(lia)). destruct (Nat.eq_dec k k') as [->|]; [|lia]. exfalso.
  apply locate_at in H1, H2. destruct H1 as (E1 & _ & ->), H2 as (E2 & _ & ->). rewrite E1 in E2. injection E2 as ->. lia.
Qed.
Lemma follow_lt x y : follow n x y -> y < size pats.
Proof. intros H. apply (bi_follow _ _ B) in H. destruct H as (? & ? & ? & ? & _ & H & _). eapply locate_lt; eauto. Qed.
Lemma start_lt x : In x (b_start b) -> x < size pats.
Proof. intros H. apply (bi_start _ _ B) in H. destruct H as (? & ? & ? & H & _). eapply locate_lt; eauto. Qed.
End Sem.
End P.
