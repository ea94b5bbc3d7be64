(* The positions automaton: sets and the follow relation *)
From Coq Require Import ZArith Bool List Arith Lia Sorted.
From Verif Require Import ArrLib FlatMapSpec FrozenSetsModel FrozenSetsSpec FrozenSetsProofs RangeMapModel StringMatcherModel WordWrapProofs2.
Import ListNotations.
Open Scope nat_scope.

Notation nfa := (list slot * list (list nat))%type.
Notation sorted := (StronglySorted lt).

Lemma ltb_swo : strict_weak_order Nat.ltb.
Proof.
  constructor; intros;
  repeat match goal with
  | H : (_ <? _) = true |- _ => apply Nat.ltb_lt in H
  | H : (_ <? _) = false |- _ => apply Nat.ltb_ge in H
  | |- (_ <? _) = true => apply Nat.ltb_lt
  | |- (_ <? _) = false => apply Nat.ltb_ge
  end; try lia.
Qed.

Lemma sorted_ss l : sorted l <-> strictly_sorted Nat.ltb l.
Proof.
  unfold strictly_sorted. split; induction 1 as [|a l H IH F]; constructor; auto;
  revert F; apply Forall_impl; intros; now apply Nat.ltb_lt.
Qed.

Lemma set_of_in l x : set_of Nat.ltb l x = true <-> In x l.
Proof.
  unfold set_of. rewrite existsb_exists. unfold eqv. split.
  - intros (y & Hy & E). apply andb_true_iff in E. destruct E as [E1 E2].
    apply negb_true_iff in E1, E2. apply Nat.ltb_ge in E1, E2. replace x with y by lia. assumption.
  - intros H. exists x. split; [assumption|]. now rewrite Nat.ltb_irrefl.
Qed.

Lemma union_in a b x : In x (union a b) <-> In x a \/ In x b.
Proof.
  rewrite <- !set_of_in. unfold union. rewrite (un_mem _ ltb_swo), orb_true_iff. reflexivity.
Qed.
Lemma union_sorted a b : sorted a -> sorted b -> sorted (union a b).
Proof. rewrite !sorted_ss. apply un_sorted, ltb_swo. Qed.

Lemma set_eqb_eq a b : set_eqb a b = true <-> a = b.
Proof.
  revert b. induction a as [|x a IH]; intros [|y b]; cbn; try (split; congruence).
  rewrite andb_true_iff, IH, Nat.eqb_eq. split; [intros [-> ->]; reflexivity|intros E; injection E; auto].
Qed.

Lemma sorted_ext a : forall b, sorted a -> sorted b -> (forall x, In x a <-> In x b) -> a = b.
Proof.
  induction a as [|x a IH]; intros [|y b] Ha Hb H; [reflexivity| | |].
  - exfalso. apply (proj2 (H y)). left; reflexivity.
  - exfalso. apply (proj1 (H x)). left; reflexivity.
  - inversion Ha as [|? ? Ha1 Ha2]; subst. inversion Hb as [|? ? Hb1 Hb2]; subst.
    rewrite Forall_forall in Ha2, Hb2.
    assert (x = y). { destruct (proj1 (H x)) as [->|Hx]; [left; reflexivity|reflexivity|].
      destruct (proj2 (H y)) as [->|Hy]; [left; reflexivity|reflexivity|]. specialize (Ha2 _ Hy). specialize (Hb2 _ Hx). lia. }
    subst y. f_equal. apply IH; auto. intros z. split; intros Hz.
    + destruct (proj1 (H z)) as [->|]; [right; assumption| |assumption]. specialize (Ha2 _ Hz). lia.
    + destruct (proj2 (H z)) as [->|]; [right; assumption| |assumption]. specialize (Hb2 _ Hz). lia.
Qed.

Lemma unite_some a b : sorted a -> sorted b -> (exists x, In x a /\ ~ In x b) -> unite a b = Some (union a b).
Proof.
  intros Ha Hb (x & H1 & H2). unfold unite. destruct (set_eqb a b) eqn:E; [|reflexivity].
  apply set_eqb_eq in E. congruence.
Qed.

Lemma sorted_1 x : sorted [x]. Proof. repeat constructor. Qed.
Global Hint Resolve sorted_1 union_sorted : sm.

(* the automaton *)
Definition info (n : nfa) := map (fun s => (slot_pattern_index s, slot_symbol s)) (fst n).
Definition in_follow (n : nfa) (s : slot) (q : nat) : Prop :=
  if slot_single s then q = slot_followpos s
  else exists set, nth_error (snd n) (slot_followpos s) = Some set /\ In q set.
Definition follow (n : nfa) (p q : nat) : Prop :=
  exists s, nth_error (fst n) p = Some s /\ in_follow n s q.

Record wf (n : nfa) : Prop := {
  wf_zero : nth_error (snd n) 0 = Some [];
  wf_sets : forall i set, nth_error (snd n) (S i) = Some set -> sorted set /\ set <> [];
  wf_index : forall p s, nth_error (fst n) p = Some s -> slot_single s = false -> slot_followpos s < length (snd n);
  wf_apart : forall p q s t, nth_error (fst n) p = Some s -> nth_error (fst n) q = Some t -> p <> q ->
    slot_single s = false -> slot_single t = false -> slot_followpos s = slot_followpos t -> slot_followpos s = 0
}.

Lemma nth_error_snoc {A} (l : list A) x i y : nth_error (l ++ [x]) i = Some y ->
  (i < length l /\ nth_error l i = Some y) \/ (i = length l /\ y = x).
Proof.
  intros H. destruct (Nat.lt_ge_cases i (length l)).
  - left. rewrite nth_error_app1 in H by lia. auto.
  - right. rewrite nth_error_app2 in H by lia. destruct (i - length l) as [|[|?]] eqn:E; cbn in H; try discriminate.
    injection H as <-. split; [lia|reflexivity].
Qed.

Lemma register_position_spec n s k : wf n ->
  exists n', register_position n s k = (length (fst n), n') /\ wf n' /\
    info n' = info n ++ [(k, s)] /\ (forall p q, follow n' p q <-> follow n p q).
Proof.
  intros [W0 W1 W2 W3]. unfold register_position. eexists. split; [reflexivity|].
  split; [|split].
  - constructor; cbn [fst snd]; auto.
    + intros p t H Hs. apply nth_error_snoc in H. destruct H as [[H1 H2]|[H1 ->]]; [eauto|].
      cbn. apply (nth_lt _ _ _ W0).
    + intros p q t u H1 H2 Hpq S1 S2 E.
      apply nth_error_snoc in H1, H2. destruct H1 as [[? H1]|[-> ->]]; [|reflexivity].
      destruct H2 as [[? H2]|[-> ->]]; [|assumption]. eapply W3; eauto.
  - unfold info. cbn [fst]. now rewrite map_app.
  - intros p q. unfold follow. cbn [fst]. split.
    + intros (t & H & F). apply nth_error_snoc in H. destruct H as [[? H]|[-> ->]].
      * exists t. auto.
      * unfold in_follow in F. cbn [slot_single slot_followpos snd] in F. destruct F as (set & F1 & F2). rewrite W0 in F1. injection F1 as <-. destruct F2.
    + intros (t & H & F). exists t. split; [|assumption]. rewrite nth_error_app1; [assumption|]. eapply nth_lt; eauto.
Qed.

Lemma map_set_nth {A B} (f : A -> B) l i x l' y : set_nth l i x = Some l' -> nth_error l i = Some y -> f x = f y -> map f l' = map f l.
Proof.
  revert i l'. induction l as [|a l IH]; intros i l' H Hi E; [destruct i; discriminate|].
  destruct i as [|i]; cbn in H, Hi.
  - injection H as <-. injection Hi as <-. cbn. congruence.
  - destruct (set_nth l i x) as [l2|] eqn:E2; [|discriminate]. cbn in H. injection H as <-. cbn. f_equal. eapply IH; eauto.
Qed.

Lemma info_length n : length (info n) = length (fst n).
Proof. apply map_length. Qed.

Lemma register_followpos_spec n p q : wf n -> p < length (fst n) ->
  exists n', register_followpos n p q = Some n' /\ wf n' /\
    info n' = info n /\ (forall a b, follow n' a b <-> follow n a b \/ (a = p /\ b = q)).
Proof.
  intros W Hp. assert (W' := W). destruct W' as [W0 W1 W2 W3].
  destruct n as [ps sets]. cbn [fst snd] in *. unfold register_followpos.
  destruct (nth_some ps p Hp) as [s Hs]. rewrite Hs. cbn [obind].
  destruct (slot_single s) eqn:Es; cbn [negb].
  - set (s' := Slot (slot_pattern_index s) false (slot_symbol s) (length sets)).
    destruct (set_nth_lt ps p s' Hp) as [ps' E]. rewrite E. cbn [obind]. eexists. split; [reflexivity|].
    assert (Hz : 0 < length sets) by (eapply nth_lt; eauto).
    split; [|split].
    + constructor; cbn [fst snd].
      * rewrite nth_error_app1 by lia. assumption.
      * intros i set H. apply nth_error_snoc in H. destruct H as [[_ H]|[_ ->]]; [eauto|].
        split; [auto with sm|]. intros C. assert (I : In q (union [slot_followpos s] [q])) by (apply union_in; right; left; reflexivity).
        rewrite C in I. destruct I.
      * intros a t Ha Ht. rewrite app_length. cbn [length]. rewrite (nth_error_set_nth _ _ _ _ a E) in Ha.
        destruct (Nat.eqb_spec a p); [injection Ha as <-; cbn; lia|]. specialize (W2 _ _ Ha Ht). lia.
      * intros a b t u Ha Hb Hab St Su Ef.
        rewrite (nth_error_set_nth _ _ _ _ a E) in Ha. rewrite (nth_error_set_nth _ _ _ _ b E) in Hb.
        destruct (Nat.eqb_spec a p), (Nat.eqb_spec b p); try lia; subst.
        -- injection Ha as <-. cbn in Ef. specialize (W2 _ _ Hb Su). lia.
        -- injection Hb as <-. cbn in Ef. specialize (W2 _ _ Ha St). lia.
        -- eauto.
    + unfold info. cbn [fst]. eapply map_set_nth; eauto.
    + intros a b. unfold follow. cbn [fst]. rewrite (nth_error_set_nth _ _ _ _ a E).
      destruct (Nat.eqb_spec a p) as [->|Hne].
      * split.
        -- intros (t & Ht & F). injection Ht as <-. unfold in_follow in F. cbn [s' slot_single slot_followpos snd] in F. destruct F as (set & F1 & F2).
           rewrite nth_error_app2, Nat.sub_diag in F1 by lia. cbn [nth_error] in F1.
           assert (U : set = union [slot_followpos s] [q]) by congruence. rewrite U in F2. apply union_in in F2. destruct F2 as [[<-|[]]|[<-|[]]].
           ++ left. exists s. split; [assumption|]. unfold in_follow. now rewrite Es.
           ++ right; auto.
        -- intros H. exists s'. split; [reflexivity|]. unfold in_follow. cbn [s' slot_single slot_followpos snd]. exists (union [slot_followpos s] [q]).
           rewrite nth_error_app2, Nat.sub_diag by lia. split; [reflexivity|]. apply union_in.
           destruct H as [(t & Ht & F)|[_ ->]]; [|right; left; reflexivity].
           left; left. rewrite Hs in Ht. injection Ht as <-. unfold in_follow in F. rewrite Es in F. auto.
      * split.
        -- intros (t & Ht & F). left. exists t. split; [assumption|]. unfold in_follow in *. cbn [snd] in *.
           destruct (slot_single t) eqn:St; [assumption|]. destruct F as (set & F1 & F2). exists set. split; [|assumption].
           rewrite nth_error_app1 in F1; [assumption|]. eauto.
        -- intros [(t & Ht & F)|[-> _]]; [|contradiction]. exists t. split; [assumption|]. unfold in_follow in *. cbn [snd] in *.
           destruct (slot_single t) eqn:St; [assumption|]. destruct F as (set & F1 & F2). exists set. split; [|assumption].
           rewrite nth_error_app1; [assumption|]. eauto.
  - destruct (Nat.eqb_spec (slot_followpos s) 0) as [Ez|Ez].
    + set (s' := Slot (slot_pattern_index s) true (slot_symbol s) q).
      destruct (set_nth_lt ps p s' Hp) as [ps' E]. rewrite E. cbn [obind]. eexists. split; [reflexivity|].
      split; [|split].
      * constructor; cbn [fst snd]; auto.
        -- intros a t Ha Ht. rewrite (nth_error_set_nth _ _ _ _ a E) in Ha.
           destruct (Nat.eqb_spec a p); [injection Ha as <-; cbn in Ht; discriminate|]. eauto.
        -- intros a b t u Ha Hb Hab St Su Ef.
           rewrite (nth_error_set_nth _ _ _ _ a E) in Ha. rewrite (nth_error_set_nth _ _ _ _ b E) in Hb.
           destruct (Nat.eqb_spec a p); [injection Ha as <-; cbn in St; discriminate|].
           destruct (Nat.eqb_spec b p); [injection Hb as <-; cbn in Su; discriminate|]. eauto.
      * unfold info. cbn [fst]. eapply map_set_nth; eauto.
      * intros a b. unfold follow. cbn [fst]. rewrite (nth_error_set_nth _ _ _ _ a E).
        destruct (Nat.eqb_spec a p) as [->|Hne].
        -- split.
           ++ intros (t & Ht & F). injection Ht as <-. unfold in_follow in F. cbn in F. right; auto.
           ++ intros [(t & Ht & F)|[_ ->]].
              ** rewrite Hs in Ht. injection Ht as <-. unfold in_follow in F. rewrite Es, Ez in F. cbn [snd] in F.
                 destruct F as (set & F1 & F2). rewrite W0 in F1. injection F1 as <-. destruct F2.
              ** exists s'. split; reflexivity.
        -- split.
           ++ intros (t & Ht & F). left. exists t. auto.
           ++ intros [(t & Ht & F)|[-> _]]; [|contradiction]. exists t. auto.
    + pose proof (W2 _ _ Hs Es) as Hi. destruct (nth_some sets _ Hi) as [set Hset]. rewrite Hset. cbn [obind].
      destruct (set_nth_lt sets _ (union set [q]) Hi) as [sets' E]. rewrite E. cbn [obind]. eexists. split; [reflexivity|].
      assert (Hset' := Hset). destruct (slot_followpos s) as [|fi] eqn:Ef; [contradiction|].
      split; [|split].
      * constructor; cbn [fst snd].
        -- rewrite (nth_error_set_nth _ _ _ _ _ E). cbn. assumption.
        -- intros i st H. rewrite (nth_error_set_nth _ _ _ _ _ E) in H. destruct (Nat.eqb_spec (S i) (S fi)); [|eauto].
           injection H as <-. destruct (W1 _ _ Hset) as [S1 S2]. split; [auto with sm|].
           intros C. assert (I : In q (union set [q])) by (apply union_in; right; left; reflexivity). rewrite C in I. destruct I.
        -- intros. rewrite (set_nth_length _ _ _ _ E). eauto.
        -- assumption.
      * reflexivity.
      * intros a b. unfold follow. cbn [fst].
        destruct (Nat.eq_dec a p) as [->|Hne].
        -- rewrite Hs. split.
           ++ intros (t & Ht & F). injection Ht as <-. unfold in_follow in *. rewrite Es, Ef in *. cbn [snd] in *.
              destruct F as (st & F1 & F2). rewrite (nth_set_same _ _ _ _ E) in F1. injection F1 as <-.
              apply union_in in F2. destruct F2 as [F2|[<-|[]]]; [|right; auto].
              left. exists s. split; [reflexivity|]. rewrite Es, Ef. exists set. auto.
           ++ intros H. exists s. split; [reflexivity|]. unfold in_follow. rewrite Es, Ef. cbn [snd]. exists (union set [q]).
              rewrite (nth_set_same _ _ _ _ E). split; [reflexivity|]. apply union_in.
              destruct H as [(t & Ht & F)|[_ ->]]; [|right; left; reflexivity]. left. injection Ht as <-.
              unfold in_follow in F. rewrite Es, Ef in F. cbn [snd] in F. destruct F as (st & F1 & F2). congruence.
        -- assert (O : forall t, nth_error ps a = Some t -> (in_follow (ps, sets') t b <-> in_follow (ps, sets) t b)).
           { intros t Ht. unfold in_follow. cbn [snd]. destruct (slot_single t) eqn:St; [reflexivity|].
             rewrite (nth_set_other _ _ _ _ (slot_followpos t) E); [reflexivity|].
             intros C. rewrite <- Ef in C. specialize (W3 _ _ _ _ Ht Hs Hne St Es C). lia. }
           split.
           ++ intros (t & Ht & F). left. exists t. split; [assumption|]. now apply O.
           ++ intros [(t & Ht & F)|[-> _]]; [|contradiction]. exists t. split; [assumption|]. now apply O.
Qed.

Lemma info_len_eq n n' : info n' = info n -> length (fst n') = length (fst n).
Proof. intros H. rewrite <- !info_length. now rewrite H. Qed.

Lemma register_followpos_each_spec q2 : forall n p, wf n -> p < length (fst n) ->
  exists n', register_followpos_each n p q2 = Some n' /\ wf n' /\
    info n' = info n /\ (forall a b, follow n' a b <-> follow n a b \/ (a = p /\ In b q2)).
Proof.
  induction q2 as [|q q2 IH]; intros n p W Hp; cbn [register_followpos_each].
  - exists n. split; [reflexivity|]. split; [assumption|]. split; [reflexivity|]. intros a b. cbn. tauto.
  - destruct (register_followpos_spec n p q W Hp) as (n1 & -> & W1 & I1 & F1). cbn [obind].
    destruct (IH n1 p W1) as (n2 & -> & W2 & I2 & F2); [rewrite (info_len_eq _ _ I1); assumption|].
    exists n2. split; [reflexivity|]. split; [assumption|]. split; [congruence|].
    intros a b. rewrite F2, F1. cbn [In]. intuition (subst; auto).
Qed.

Lemma register_followpos_2_spec q1 q2 : forall n, wf n -> (forall p, In p q1 -> p < length (fst n)) ->
  exists n', register_followpos_2 n q1 q2 = Some n' /\ wf n' /\
    info n' = info n /\ (forall a b, follow n' a b <-> follow n a b \/ (In a q1 /\ In b q2)).
Proof.
  induction q1 as [|q q1 IH]; intros n W Hp; cbn [register_followpos_2].
  - exists n. split; [reflexivity|]. split; [assumption|]. split; [reflexivity|]. intros a b. cbn. tauto.
  - destruct (register_followpos_each_spec q2 n q W (Hp q (or_introl eq_refl))) as (n1 & -> & W1 & I1 & F1). cbn [obind].
    destruct (IH n1 W1) as (n2 & -> & W2 & I2 & F2); [intros; rewrite (info_len_eq _ _ I1); apply Hp; right; assumption|].
    exists n2. split; [reflexivity|]. split; [assumption|]. split; [congruence|].
    intros a b. rewrite F2, F1. cbn [In]. intuition (subst; auto).
Qed.

Lemma register_followpos_1_spec q1 q : forall n, wf n -> (forall p, In p q1 -> p < length (fst n)) ->
  exists n', register_followpos_1 n q1 q = Some n' /\ wf n' /\
    info n' = info n /\ (forall a b, follow n' a b <-> follow n a b \/ (In a q1 /\ b = q)).
Proof.
  induction q1 as [|p q1 IH]; intros n W Hp; cbn [register_followpos_1].
  - exists n. split; [reflexivity|]. split; [assumption|]. split; [reflexivity|]. intros a b. cbn. tauto.
  - destruct (register_followpos_spec n p q W (Hp p (or_introl eq_refl))) as (n1 & -> & W1 & I1 & F1). cbn [obind].
    destruct (IH n1 W1) as (n2 & -> & W2 & I2 & F2); [intros; rewrite (info_len_eq _ _ I1); apply Hp; right; assumption|].
    exists n2. split; [reflexivity|]. split; [assumption|]. split; [congruence|].
    intros a b. rewrite F2, F1. cbn [In]. intuition (subst; auto).
Qed.
