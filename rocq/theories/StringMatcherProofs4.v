(* The deterministic automaton *)
From Coq Require Import ZArith Bool List Arith Lia Sorted.
From Verif Require Import ArrLib RangeMapModel RangeMapSpec RangeMapProps StringMatcherModel StringMatcherSpec
  StringMatcherProofs StringMatcherProofs2 StringMatcherProofs3 WordWrapProofs2.
Import ListNotations.
Open Scope nat_scope.

Lemma forall2_nth {A B} (P : A -> B -> Prop) l1 l2 : Forall2 P l1 l2 -> forall i a, nth_error l1 i = Some a -> exists b, nth_error l2 i = Some b /\ P a b.
Proof. induction 1; intros [|i] a; cbn; try discriminate; [intros E; injection E as <-; eauto|auto]. Qed.

(* sorted lists of small numbers are few *)
Fixpoint sublists (l : list nat) : list (list nat) :=
  match l with [] => [[]] | x :: l => map (cons x) (sublists l) ++ sublists l end.
Lemma sublists_length l : length (sublists l) = 2 ^ length l.
Proof. induction l as [|x l IH]; cbn; [reflexivity|]. rewrite app_length, map_length, IH. lia. Qed.
Lemma sorted_sublist N : forall a K, sorted K -> (forall x, In x K -> a <= x < a + N) -> In K (sublists (seq a N)).
Proof.
  induction N as [|N IH]; intros a K S H; cbn [seq sublists].
  - destruct K as [|x K]; [left; reflexivity|]. specialize (H x (or_introl eq_refl)). lia.
  - apply in_app_iff. destruct K as [|x K]; [right; apply IH; [assumption|intros ? []]|].
    inversion S as [|? ? S1 S2]; subst. rewrite Forall_forall in S2. destruct (Nat.eq_dec x a) as [->|Hx].
    + left. apply in_map. apply IH; [assumption|]. intros y Hy. specialize (S2 y Hy). specialize (H y (or_intror Hy)). lia.
    + right. apply IH; [assumption|]. intros y Hy. specialize (H y Hy) as H1. destruct Hy as [->|Hy]; [lia|]. specialize (S2 y Hy). specialize (H x (or_introl eq_refl)). lia.
Qed.

Section D.
Variables (kmin kmax : Z) (n : nfa) (start : list nat) (allow : bool).
Hypothesis W : wf n.
Hypothesis Hk : (kmin <= kmax)%Z.
Hypothesis Hfollow : forall x y, follow n x y -> y < length (fst n).
Hypothesis Hsym : forall x y sl c, nth_error (fst n) x = Some sl -> slot_symbol sl = SCharacter c -> follow n x y -> (kmin <= c <= kmax)%Z.
Hypothesis Hmono : forall x y k k', final n x k -> final n y k' -> x < y -> k < k'.
Notation N := (length (fst n)).
Notation targets := (list (Z * (Z * list nat))).

Definition step (K : list nat) (ch : Z) (y : nat) : Prop :=
  exists x sl, In x K /\ nth_error (fst n) x = Some sl /\ sym_match (slot_symbol sl) ch /\ follow n x y.
Definition get (t : targets) (ch : Z) : list nat := match rm_get t ch with Some v => v | None => [] end.
Definition t_ok (K : list nat) (t : targets) : Prop :=
  rm_ok kmin kmax t /\ (forall ch v, rm_get t ch = Some v -> sorted v /\ v <> []) /\
  (forall ch y, (kmin <= ch <= kmax)%Z -> (In y (get t ch) <-> step K ch y)).
Definition pat (K : list nat) (pi : option nat) : Prop :=
  match pi with
  | None => forall x k, In x K -> ~ final n x k
  | Some k => (exists x, In x K /\ final n x k) /\ forall x k', In x K -> final n x k' -> k <= k'
  end.
Definition uniq (K : list nat) : Prop := forall x y k k', In x K -> In y K -> final n x k -> final n y k' -> k = k'.

Lemma step_app a b ch y : step (a ++ b) ch y <-> step a ch y \/ step b ch y.
Proof.
  unfold step. split.
  - intros (x & sl & H & R). apply in_app_iff in H. destruct H; [left|right]; exists x, sl; auto.
  - intros [(x & sl & H & R)|(x & sl & H & R)]; exists x, sl; rewrite in_app_iff; auto.
Qed.

Lemma follow_set_spec x s : nth_error (fst n) x = Some s -> slot_single s = true \/ slot_followpos s <> 0 ->
  exists set, follow_set n s = Some set /\ sorted set /\ set <> [] /\ forall y, In y set <-> follow n x y.
Proof.
  intros Hs Hf. unfold follow_set. destruct (slot_single s) eqn:E.
  - exists [slot_followpos s]. split; [reflexivity|]. split; [apply sorted_1|]. split; [discriminate|].
    intros y. unfold follow, in_follow. cbn [In]. split.
    + intros [<-|[]]. exists s. rewrite E. auto.
    + intros (t & Ht & F). rewrite Hs in Ht. injection Ht as <-. rewrite E in F. auto.
  - destruct Hf as [|Hf]; [discriminate|]. pose proof (wf_index _ W _ _ Hs E) as L. destruct (nth_some _ _ L) as [set Hset]. rewrite Hset.
    exists set. split; [reflexivity|]. destruct (slot_followpos s) as [|i] eqn:Ef; [contradiction|]. destruct (wf_sets _ W _ _ Hset) as [S1 S2].
    split; [assumption|]. split; [assumption|]. intros y. unfold follow, in_follow. split.
    + intros H. exists s. rewrite E, Ef. split; [assumption|]. eauto.
    + intros (t & Ht & F). rewrite Hs in Ht. injection Ht as <-. rewrite E, Ef in F. destruct F as (set' & F1 & F2). congruence.
Qed.

Lemma update_ok pre x s t set first last :
  nth_error (fst n) x = Some s -> t_ok pre t -> sorted set -> set <> [] -> (forall y, In y set <-> follow n x y) ->
  (kmin <= first <= last)%Z -> (last <= kmax)%Z ->
  (forall ch, (kmin <= ch <= kmax)%Z -> (sym_match (slot_symbol s) ch <-> first <= ch <= last)%Z) ->
  exists t', rm_update kmin kmax [] (fun p => union p set) t first last = Some t' /\ t_ok (pre ++ [x]) t'.
Proof.
  intros Hs (T1 & T2 & T3) S1 S2 Hset H1 H2 Hm.
  destruct (range_map_update_pointwise _ kmin kmax [] (fun p => union p set) t first last T1 H1 H2) as (t' & E & O & G).
  exists t'. split; [exact E|]. split; [assumption|]. split.
  - intros ch v Hv. rewrite G in Hv. destruct ((first <=? ch) && (ch <=? last))%Z eqn:Er; [|eauto].
    assert (Ev : v = union (get t ch) set) by (unfold get; congruence). subst v. split.
    + apply union_sorted; [|assumption]. unfold get. destruct (rm_get t ch) as [v|] eqn:Eg; [apply (T2 _ _ Eg)|constructor].
    + intros C. destruct set as [|y set]; [congruence|]. assert (I : In y (union (get t ch) (y :: set))) by (apply union_in; right; left; reflexivity).
      rewrite C in I. destruct I.
  - intros ch y Hch. rewrite step_app, <- (T3 ch y Hch). unfold get at 1. rewrite G.
    assert (Hx : step [x] ch y <-> (first <= ch <= last)%Z /\ In y set).
    { rewrite Hset, <- Hm by assumption. split.
      - intros (x' & s' & [<-|[]] & H & H' & F). rewrite Hs in H. injection H as <-. auto.
      - intros [H F]. exists x, s. split; [left; reflexivity|]. auto. }
    rewrite Hx. destruct ((first <=? ch) && (ch <=? last))%Z eqn:Er.
    + apply andb_true_iff in Er. rewrite !Z.leb_le in Er. change (match rm_get t ch with Some v => v | None => [] end) with (get t ch). rewrite union_in. tauto.
    + change (match rm_get t ch with Some v => v | None => [] end) with (get t ch).
      apply andb_false_iff in Er. rewrite !Z.leb_gt in Er. split; [auto|]. intros [?|[? ?]]; [assumption|lia].
Qed.

Lemma scan_spec K : forall pre t pi, sorted (pre ++ K) -> (forall x, In x K -> x < N) ->
  t_ok pre t -> pat pre pi -> (allow = false -> uniq pre) ->
  exists r, scan kmin kmax allow n K t pi = Some r /\
  match r with
  | Built (t', pi') => t_ok (pre ++ K) t' /\ pat (pre ++ K) pi' /\ (allow = false -> uniq (pre ++ K))
  | Ambiguity i j => allow = false /\ i < j /\ (exists x, In x (pre ++ K) /\ final n x i) /\ (exists x, In x (pre ++ K) /\ final n x j)
  end.
Proof.
  induction K as [|x K IH]; intros pre t pi So Hlt T P U; cbn [scan].
  - eexists. split; [reflexivity|]. cbn. rewrite app_nil_r. auto.
  - destruct (nth_some _ _ (Hlt x (or_introl eq_refl))) as [s Hs]. rewrite Hs. cbn [obind].
    assert (Epre : pre ++ x :: K = (pre ++ [x]) ++ K) by now rewrite <- app_assoc.
    assert (Hlt' : forall y, In y K -> y < N) by (intros; apply Hlt; right; assumption).
    assert (Hpre : forall y, In y pre -> y < x).
    { intros y Hy. clear - So Hy. induction pre as [|z pre IH]; [destruct Hy|]. cbn in So. inversion So as [|? ? S1 S2]; subst.
      destruct Hy as [->|Hy]; [|auto]. rewrite Forall_forall in S2. apply S2. apply in_app_iff. right; left; reflexivity. }
    destruct (negb (slot_single s) && (slot_followpos s =? 0)) eqn:Ef; cbn [negb].
    + apply andb_true_iff in Ef. destruct Ef as [E1 E2]. apply negb_true_iff in E1. apply Nat.eqb_eq in E2.
      set (k := slot_pattern_index s). assert (Fx : final n x k) by (exists s; auto).
      assert (T' : t_ok (pre ++ [x]) t).
      { destruct T as (T1 & T2 & T3). split; [assumption|]. split; [assumption|]. intros ch y Hch. rewrite T3, step_app by assumption.
        split; [auto|]. intros [?|(x' & s' & [<-|[]] & _ & _ & F)]; [assumption|]. exfalso.
        apply (final_no_follow n x k W) in Fx. destruct Fx as (_ & _ & _ & Fx). eapply Fx; eauto. }
      destruct pi as [k0|].
      * destruct P as [(x0 & Hx0 & F0) Pmin]. pose proof (Hmono _ _ _ _ F0 Fx (Hpre _ Hx0)) as Hlt0. fold k.
        destruct (Nat.ltb_spec k0 k); [cbn [negb]|lia]. destruct allow eqn:Ea.
        -- rewrite Epre. apply IH; auto.
           ++ now rewrite <- Epre.
           ++ split; [exists x0; rewrite in_app_iff; auto|]. intros y k' Hy Fy. apply in_app_iff in Hy. destruct Hy as [Hy|[<-|[]]]; [eauto|].
              destruct (Nat.lt_ge_cases k' k0); [|assumption]. destruct Fx as (s1 & A1 & A2 & A3 & A4). destruct Fy as (s2 & B1 & B2 & B3 & B4). rewrite A1 in B1. injection B1 as <-. lia.
           ++ discriminate.
        -- eexists. split; [reflexivity|]. cbn. split; [reflexivity|]. split; [assumption|]. split; [exists x0|exists x]; rewrite in_app_iff; cbn; auto.
      * rewrite Epre. apply IH; auto.
        -- now rewrite <- Epre.
        -- split; [exists x; rewrite in_app_iff; cbn; auto|]. intros y k' Hy Fy. apply in_app_iff in Hy. destruct Hy as [Hy|[<-|[]]]; [destruct (P _ _ Hy Fy)|].
           destruct Fx as (s1 & A1 & A2 & A3 & A4). destruct Fy as (s2 & B1 & B2 & B3 & B4). rewrite A1 in B1. injection B1 as <-. lia.
        -- intros _ y z k1 k2 Hy Hz Fy Fz. apply in_app_iff in Hy, Hz.
           destruct Hy as [Hy|[<-|[]]]; [destruct (P _ _ Hy Fy)|]. destruct Hz as [Hz|[<-|[]]]; [destruct (P _ _ Hz Fz)|].
           destruct Fz as (s1 & A1 & A2 & A3 & A4). destruct Fy as (s2 & B1 & B2 & B3 & B4). rewrite A1 in B1. injection B1 as <-. lia.
    + assert (Hnf : slot_single s = true \/ slot_followpos s <> 0).
      { apply andb_false_iff in Ef. destruct Ef as [Ef|Ef]; [left; now apply negb_false_iff in Ef|right; now apply Nat.eqb_neq in Ef]. }
      destruct (follow_set_spec x s Hs Hnf) as (set & -> & S1 & S2 & S3). cbn [obind].
      assert (Hu : exists t', match slot_symbol s with
          | SCharacter ch => rm_update kmin kmax [] (fun p => union p set) t ch ch
          | SWildcard => rm_update kmin kmax [] (fun p => union p set) t kmin kmax
          end = Some t' /\ t_ok (pre ++ [x]) t').
      { destruct (slot_symbol s) as [c|] eqn:Esym.
        - assert (Hc : (kmin <= c <= kmax)%Z). { destruct set as [|y set]; [congruence|]. apply (Hsym x y s c Hs Esym). apply S3. left; reflexivity. }
          apply (update_ok pre x s t set c c); auto; try lia. intros ch Hch. rewrite Esym. cbn. lia.
        - apply (update_ok pre x s t set kmin kmax); auto; try lia. intros ch Hch. rewrite Esym. cbn. tauto. }
      destruct Hu as (t' & -> & T'). cbn [obind].
      assert (Nf : forall k, ~ final n x k).
      { intros k F. apply (final_no_follow n x k W) in F. destruct F as (_ & _ & _ & F). destruct set as [|y set]; [congruence|].
        apply (F y). apply S3. left; reflexivity. }
      rewrite Epre. apply IH; auto.
      * now rewrite <- Epre.
      * destruct pi as [k0|].
        -- destruct P as [(x0 & Hx0 & F0) Pmin]. split; [exists x0; rewrite in_app_iff; auto|].
           intros y k' Hy Fy. apply in_app_iff in Hy. destruct Hy as [Hy|[<-|[]]]; [eauto|]. destruct (Nf _ Fy).
        -- intros y k' Hy Fy. apply in_app_iff in Hy. destruct Hy as [Hy|[<-|[]]]; [eapply P; eauto|]. destruct (Nf _ Fy).
      * intros Ea y z k1 k2 Hy Hz Fy Fz. apply in_app_iff in Hy, Hz.
        destruct Hy as [Hy|[<-|[]]]; [|destruct (Nf _ Fy)]. destruct Hz as [Hz|[<-|[]]]; [|destruct (Nf _ Fz)]. apply (U Ea y z); auto.
Qed.

(* transitions *)
Definition tr_rel (keys : list (list nat)) (e : Z * (Z * list nat)) (tr : transition) : Prop :=
  tr_first tr = fst e /\ tr_last tr = fst (snd e) /\ nth_error keys (tr_target tr) = Some (snd (snd e)).

Lemma find_state_some keys set i : find_state keys set = Some i -> nth_error keys i = Some set.
Proof.
  revert i. induction keys as [|K keys IH]; intros i; cbn; [discriminate|]. destruct (set_eqb K set) eqn:E.
  - intros H. injection H as <-. apply set_eqb_eq in E. now subst.
  - destruct (find_state keys set); [|discriminate]. cbn. intros H. injection H as <-. cbn. auto.
Qed.
Lemma find_state_none keys set : find_state keys set = None -> ~ In set keys.
Proof.
  induction keys as [|K keys IH]; cbn; [auto|]. destruct (set_eqb K set) eqn:E; [discriminate|].
  destruct (find_state keys set); [discriminate|]. intros _ [->|H]; [|now apply IH].
  assert (set_eqb set set = true) by now apply set_eqb_eq. congruence.
Qed.
Lemma nth_app_l {A} (l m : list A) i x : nth_error l i = Some x -> nth_error (l ++ m) i = Some x.
Proof. intros H. rewrite nth_error_app1; [assumption|]. eapply nth_lt; eauto. Qed.

Lemma add_transitions_spec t : forall keys unchecked trans, NoDup keys -> Forall (fun e => snd (snd e) <> []) t ->
  exists new trs, add_transitions t keys unchecked trans = Some (keys ++ new, unchecked ++ new, trans ++ trs) /\
    NoDup (keys ++ new) /\ Forall2 (tr_rel (keys ++ new)) t trs /\ (forall K, In K new -> exists e, In e t /\ snd (snd e) = K).
Proof.
  induction t as [|[first [last set]] t IH]; intros keys unchecked trans Nd Ne; cbn [add_transitions].
  - exists [], []. rewrite !app_nil_r. split; [reflexivity|]. split; [assumption|]. split; [constructor|]. intros K [].
  - inversion Ne as [|? ? Hne Ne']; subst. cbn [snd] in Hne.
    assert (G : exists new trs, (let '(i, (keys, unchecked)) := ensure_state keys unchecked set in
        add_transitions t keys unchecked (trans ++ [Transition first last i])) = Some (keys ++ new, unchecked ++ new, trans ++ trs) /\
      NoDup (keys ++ new) /\ Forall2 (tr_rel (keys ++ new)) ((first, (last, set)) :: t) trs /\
      (forall K, In K new -> exists e, In e ((first, (last, set)) :: t) /\ snd (snd e) = K)).
    { unfold ensure_state. destruct (find_state keys set) as [i|] eqn:Ei.
      - destruct (IH keys unchecked (trans ++ [Transition first last i]) Nd Ne') as (new & trs & E & N1 & R & I).
        exists new, (Transition first last i :: trs). rewrite E, <- app_assoc. split; [reflexivity|]. split; [assumption|]. split.
        + constructor; [|assumption]. split; [reflexivity|]. split; [reflexivity|]. apply nth_app_l. cbn. now apply find_state_some.
        + intros K HK. destruct (I K HK) as (e & He & Es). exists e. split; [right; assumption|assumption].
      - destruct (IH (keys ++ [set]) (unchecked ++ [set]) (trans ++ [Transition first last (length keys)])) as (new & trs & E & N1 & R & I); auto.
        { apply find_state_none in Ei. clear - Nd Ei. induction keys as [|K keys IH]; cbn; [repeat constructor; auto|].
          inversion Nd; subst. constructor.
          - intros C. apply in_app_iff in C. destruct C as [C|[C|[]]]; [auto|]. apply Ei. left; congruence.
          - apply IH; [assumption|]. intros C. apply Ei. right; assumption. }
        exists (set :: new), (Transition first last (length keys) :: trs). rewrite E, <- !app_assoc. rewrite <- app_assoc in N1, R. cbn [app] in *.
        split; [reflexivity|]. split; [assumption|]. split.
        + constructor; [|assumption]. split; [reflexivity|]. split; [reflexivity|]. cbn. rewrite nth_error_app2, Nat.sub_diag by lia. reflexivity.
        + intros K [<-|HK]; [exists (first, (last, set)); split; [left; reflexivity|reflexivity]|].
          destruct (I K HK) as (e & He & Es). exists e. split; [right; assumption|assumption]. }
    destruct set as [|y set]; [congruence|]. exact G.
Qed.

Lemma find_transition_spec keys t trs ch : Forall2 (tr_rel keys) t trs -> rm_ok kmin kmax t ->
  match find_transition trs ch with
  | Some tr => if Z.leb (tr_first tr) ch then exists set, rm_get t ch = Some set /\ nth_error keys (tr_target tr) = Some set else rm_get t ch = None
  | None => rm_get t ch = None
  end.
Proof.
  induction 1 as [|[first [last set]] tr t trs [E1 [E2 E3]] HR IH]; intros [Hf Hs]; cbn [find_transition rm_get]; [reflexivity|].
  cbn [fst snd] in *. inversion Hf as [|? ? Hf1 Hf2]; subst. inversion Hs as [|? ? Hs1 Hs2]; subst. cbn [fst snd] in *.
  destruct (Z.ltb_spec (tr_last tr) ch).
  - destruct (Z.leb_spec (tr_first tr) ch), (Z.leb_spec ch (tr_last tr)); try lia; cbn [andb]; apply IH; split; assumption.
  - destruct (Z.leb_spec (tr_first tr) ch); destruct (Z.leb_spec ch (tr_last tr)); try lia; cbn [andb]; [eauto|].
    clear - Hs2 H H0. induction Hs2 as [|[f [l v]] t Hh Ht IH2]; cbn; [reflexivity|]. cbn in Hh.
    destruct (Z.leb_spec f ch); [lia|]. cbn. assumption.
Qed.

(* states *)
Definition reach (K : list nat) (s : list Z) (k : nat) : Prop := exists x, In x K /\ acc n k x s.

Lemma reach_step t K s ch : t_ok K t -> (kmin <= ch <= kmax)%Z -> forall k, reach K (ch :: s) k <-> reach (get t ch) s k.
Proof.
  intros (_ & _ & T) Hch k. unfold reach. split.
  - intros (x & Hx & sl & y & H1 & H2 & H3 & H4). exists y. split; [|assumption]. apply T; [assumption|]. exists x, sl. auto.
  - intros (y & Hy & H). apply T in Hy; [|assumption]. destruct Hy as (x & sl & H1 & H2 & H3 & H4). exists x. split; [assumption|]. exists sl, y. auto.
Qed.

Definition good_key (K : list nat) : Prop :=
  sorted K /\ (forall x, In x K -> x < N) /\
  exists w, chars_ok kmin kmax w /\ forall s k, reach K s k <-> reach start (w ++ s) k.

Definition good_state (keys : list (list nat)) (trans : list transition) (K : list nat) (st : state) : Prop :=
  pat K (st_pattern st) /\ (allow = false -> uniq K) /\ st_begin st <= st_end st <= length trans /\
  exists t, t_ok K t /\ Forall2 (tr_rel keys) t (firstn (st_end st - st_begin st) (skipn (st_begin st) trans)).

Lemma good_state_app keys more trans trs K st : good_state keys trans K st -> good_state (keys ++ more) (trans ++ trs) K st.
Proof.
  intros (P & U & L & t & T & R). split; [assumption|]. split; [assumption|]. rewrite app_length. split; [lia|]. exists t. split; [assumption|].
  rewrite skipn_app, firstn_app, skipn_length.
  replace (st_end st - st_begin st - (length trans - st_begin st)) with 0 by lia. cbn [firstn]. rewrite app_nil_r.
  revert R. generalize (firstn (st_end st - st_begin st) (skipn (st_begin st) trans)). clear. intros l R.
  induction R as [|e tr t l (E1 & E2 & E3) R IH]; constructor; [|assumption]. split; [assumption|]. split; [assumption|]. now apply nth_app_l.
Qed.

Lemma rm_get_in (t : targets) e : rm_ok kmin kmax t -> In e t -> rm_get t (fst e) = Some (snd (snd e)) /\ (kmin <= fst e <= kmax)%Z.
Proof.
  intros [Hf Hs] He. induction t as [|[f [l v]] t IH]; [destruct He|]. inversion Hf as [|? ? Hf1 Hf2]; subst. inversion Hs as [|? ? Hs1 Hs2]; subst. cbn [fst snd] in *.
  destruct He as [<-|He].
  - cbn. destruct (Z.leb_spec f f), (Z.leb_spec f l); try lia. cbn. split; [reflexivity|lia].
  - destruct (IH Hf2 Hs1 He) as [E R]. split; [|assumption]. cbn. rewrite Forall_forall in Hs2. specialize (Hs2 e He). cbn in Hs2.
    destruct (Z.leb_spec f (fst e)), (Z.leb_spec (fst e) l); try lia; cbn; assumption.
Qed.

Lemma keys_few keys : NoDup keys -> Forall good_key keys -> length keys <= 2 ^ N.
Proof.
  intros Nd Hg. rewrite <- (seq_length N 0) at 1. rewrite <- sublists_length. apply NoDup_incl_length; [assumption|].
  intros K HK. rewrite Forall_forall in Hg. destruct (Hg K HK) as (S1 & S2 & _). apply sorted_sublist; [assumption|]. intros x Hx. specialize (S2 x Hx). lia.
Qed.

Lemma build_loop_spec fuel : forall keys states trans,
  NoDup keys -> Forall good_key keys -> length states < length keys ->
  Forall2 (good_state keys trans) (firstn (length states) keys) states ->
  2 ^ N < fuel + length states ->
  exists r, build_loop kmin kmax fuel allow n keys (skipn (length states) keys) states trans = Some r /\
  match r with
  | Built (states', trans') => exists more, Forall good_key (keys ++ more) /\ Forall2 (good_state (keys ++ more) trans') (keys ++ more) states'
  | Ambiguity i j => allow = false /\ i < j /\ exists w, chars_ok kmin kmax w /\ reach start w i /\ reach start w j
  end.
Proof.
  induction fuel as [|fuel IH]; intros keys states trans Nd Hg Hl Hst Hf.
  { pose proof (keys_few keys Nd Hg). lia. }
  cbn [build_loop]. destruct (nth_some keys (length states) Hl) as [K HK].
  assert (Esk : skipn (length states) keys = K :: skipn (S (length states)) keys).
  { clear - HK. revert HK. generalize (length states). induction keys as [|a keys IH]; intros [|i] H; cbn in *; try discriminate; [congruence|]. now rewrite IH. }
  rewrite Esk. assert (GK : good_key K) by (rewrite Forall_forall in Hg; apply Hg; eapply nth_error_In; eauto).
  destruct GK as (SK & LK & w & Cw & Rw).
  destruct (scan_spec K [] [] None) as (r & -> & Hr); auto.
  { split; [split; constructor|]. split; [intros ch v H; discriminate|]. intros ch y _. split; [intros []|]. intros (x & sl & [] & _). }
  { intros x k []. }
  { intros _ x y k k' []. }
  cbn [app] in Hr. cbn [obind]. destruct r as [[t pi]|i j].
  2: { eexists. split; [reflexivity|]. cbn. destruct Hr as (Ea & Hij & (x & Hx & Fx) & (y & Hy & Fy)). split; [assumption|]. split; [assumption|].
       exists w. split; [assumption|]. split; rewrite <- (app_nil_r w); apply Rw; [exists x|exists y]; auto. }
  destruct Hr as (T & P & U).
  destruct T as (T1 & T2 & T3).
  destruct (range_map_defrag _ kmin kmax set_eqb t) as (t' & Et & O & _ & D); auto.
  { intros x. now apply set_eqb_eq. }
  { intros x y z. rewrite !set_eqb_eq. congruence. }
  assert (D' : forall ch, rm_get t' ch = rm_get t ch).
  { intros ch. specialize (D ch). destruct (rm_get t ch), (rm_get t' ch); try contradiction; [|reflexivity]. apply set_eqb_eq in D. congruence. }
  rewrite Et. cbn [obind].
  assert (T' : t_ok K t').
  { split; [assumption|]. split; [intros ch v; rewrite D'; apply T2|]. intros ch y. unfold get. rewrite D'. apply T3. }
  destruct T' as (T1' & T2' & T3').
  destruct (add_transitions_spec t' keys (K :: skipn (S (length states)) keys) trans Nd) as (new & trs & Ea & Nd' & R & I).
  { apply Forall_forall. intros e He. destruct (rm_get_in t' e T1' He) as [Eg _]. apply (T2' _ _ Eg). }
  rewrite Ea. cbn [obind app tl].
  set (states' := states ++ [State pi (length trans) (length (trans ++ trs))]).
  assert (Ls : length states' = S (length states)) by (unfold states'; rewrite app_length; cbn; lia).
  assert (Eun : skipn (S (length states)) keys ++ new = skipn (length states') (keys ++ new)).
  { rewrite Ls, skipn_app. replace (S (length states) - length keys) with 0 by lia. reflexivity. }
  assert (Hg' : Forall good_key (keys ++ new)).
  { apply Forall_app. split; [assumption|]. apply Forall_forall. intros K' HK'. destruct (I K' HK') as (e & He & <-).
    destruct (rm_get_in t' e T1' He) as [Eg Hch].
    assert (Eget : get t' (fst e) = snd (snd e)) by (unfold get; now rewrite Eg).
    split; [apply (T2' _ _ Eg)|]. split.
    - intros x Hx. rewrite <- Eget in Hx. apply T3' in Hx; [|assumption]. destruct Hx as (x' & sl & _ & _ & _ & F). eapply Hfollow; eauto.
    - exists (w ++ [fst e]). split; [apply Forall_app; split; [assumption|constructor; [assumption|constructor]]|].
      intros s k. rewrite <- app_assoc, <- Rw. cbn [app]. rewrite <- Eget. symmetry. apply reach_step; [|assumption].
      split; [assumption|]. split; assumption. }
  assert (Hst' : Forall2 (good_state (keys ++ new) (trans ++ trs)) (firstn (length states') (keys ++ new)) states').
  { rewrite Ls. assert (Ef : firstn (S (length states)) (keys ++ new) = firstn (length states) keys ++ [K]).
    { rewrite firstn_app. replace (S (length states) - length keys) with 0 by lia. cbn [firstn]. rewrite app_nil_r.
      clear - HK. revert HK. generalize (length states). induction keys as [|a keys IH]; intros [|i] H; cbn [nth_error] in H; try discriminate.
      - injection H as ->. reflexivity.
      - cbn [firstn app]. f_equal. now apply IH. }
    rewrite Ef. unfold states'. apply Forall2_app.
    - clear - Hst. induction Hst; constructor; [|assumption]. now apply good_state_app.
    - constructor; [|constructor]. split; [assumption|]. split; [assumption|]. cbn [st_begin st_end]. rewrite app_length. split; [lia|].
      exists t'. split; [split; [assumption|split; assumption]|].
      replace (length trans + length trs - length trans) with (length trs) by lia.
      rewrite skipn_app, skipn_all, Nat.sub_diag. cbn [skipn app]. rewrite firstn_all. assumption. }
  rewrite Eun. destruct (skipn (length states') (keys ++ new)) as [|K2 rest2] eqn:Er.
  - eexists. split; [reflexivity|]. cbn. exists new. split; [assumption|].
    assert (length (keys ++ new) <= length states').
    { assert (H := skipn_length (length states') (keys ++ new)). rewrite Er in H. cbn in H. lia. }
    rewrite firstn_all2 in Hst' by assumption. assumption.
  - rewrite <- Er.
    destruct (IH (keys ++ new) states' (trans ++ trs) Nd' Hg') as (r & Eb & Hr); auto.
    { assert (H := skipn_length (length states') (keys ++ new)). rewrite Er in H. cbn in H. lia. }
    { rewrite Ls. lia. }
    exists r. split; [exact Eb|]. destruct r as [[states2 trans2]|i j]; [|exact Hr].
    destruct Hr as (more & H1 & H2). exists (new ++ more). rewrite app_assoc. auto.
Qed.

(* matching *)
Lemma match_loop_spec (m : matcher) keys : Forall2 (good_state keys (m_transitions m)) keys (m_states m) ->
  (forall x k, final n x k -> k < length (m_patterns m)) ->
  forall s K st, good_state keys (m_transitions m) K st -> chars_ok kmin kmax s ->
  exists r, match_loop m st s = Some r /\
    match r with
    | None => forall k, ~ reach K s k
    | Some id => exists k, reach K s k /\ (forall k', reach K s k' -> k <= k') /\ nth_error (m_patterns m) k = Some id
    end.
Proof.
  intros HF Hfin. induction s as [|ch s IH]; intros K st HG Hs.
  - destruct HG as (P & _). cbn [match_loop]. destruct (st_pattern st) as [k|].
    + destruct P as [(x & Hx & Fx) Pm]. destruct (nth_some _ _ (Hfin _ _ Fx)) as [id Hid]. rewrite Hid. cbn. exists (Some id). split; [reflexivity|].
      exists k. split; [exists x; auto|]. split; [|assumption]. intros k' (y & Hy & Fy). eauto.
    + exists None. split; [reflexivity|]. intros k (x & Hx & Fx). eapply P; eauto.
  - inversion Hs as [|? ? Hch Hs']; subst. destruct HG as (_ & _ & L & t & T & R). cbn [match_loop].
    destruct (Nat.leb_spec (st_begin st) (st_end st)), (Nat.leb_spec (st_end st) (length (m_transitions m))); try lia. cbn [andb negb].
    pose proof (find_transition_spec keys t _ ch R (proj1 T)) as Hft.
    assert (Hnone : rm_get t ch = None -> forall k, ~ reach K (ch :: s) k).
    { intros E k C. apply (reach_step t K s ch T Hch) in C. unfold get in C. rewrite E in C. destruct C as (x & [] & _). }
    destruct (find_transition _ ch) as [tr|].
    + destruct (Z.leb (tr_first tr) ch).
      * destruct Hft as (set & Eg & Ek).
        assert (exists st2, nth_error (m_states m) (tr_target tr) = Some st2 /\ good_state keys (m_transitions m) set st2) as (st2 & E2 & G2).
        { exact (forall2_nth _ _ _ HF _ _ Ek). }
        rewrite E2. cbn [obind]. destruct (IH set st2 G2 Hs') as (r & Er & Hr). exists r. split; [exact Er|].
        assert (Q : forall k, reach K (ch :: s) k <-> reach set s k).
        { intros k. rewrite (reach_step t K s ch T Hch). unfold get. rewrite Eg. reflexivity. }
        destruct r as [id|].
        -- destruct Hr as (k & H1 & H2 & H3). exists k. split; [now apply Q|]. split; [|assumption]. intros k' Hk'. apply H2. now apply Q.
        -- intros k C. apply Q in C. eapply Hr; eauto.
      * exists None. split; [reflexivity|]. auto.
    + exists None. split; [reflexivity|]. auto.
Qed.

(* no string is accepted for two patterns *)
Lemma reach_unique keys trans states : allow = false -> Forall2 (good_state keys trans) keys states ->
  forall s K st, good_state keys trans K st -> chars_ok kmin kmax s -> forall k k', reach K s k -> reach K s k' -> k = k'.
Proof.
  intros Ea HF. induction s as [|ch s IH]; intros K st HG Hs k k' H1 H2.
  - destruct HG as (_ & U & _). destruct H1 as (x & Hx & Fx), H2 as (y & Hy & Fy). apply (U Ea x y); assumption.
  - inversion Hs as [|? ? Hch Hs']; subst. destruct HG as (_ & _ & L & t & T & R).
    apply (reach_step t K s ch T Hch) in H1, H2. unfold get in *. destruct (rm_get t ch) as [set|] eqn:Eg; [|destruct H1 as (? & [] & _)].
    assert (exists tr, In tr (firstn (st_end st - st_begin st) (skipn (st_begin st) trans)) /\ nth_error keys (tr_target tr) = Some set) as (tr & _ & Ek).
    { clear - R Eg. induction R as [|[f [l v]] tr t trs (E1 & E2 & E3) R IH]; [discriminate|]. cbn in *.
      destruct ((f <=? ch)%Z && (ch <=? l)%Z); [injection Eg as ->; exists tr; auto|]. destruct (IH Eg) as (tr2 & ? & ?). exists tr2. auto. }
    assert (exists st2, good_state keys trans set st2) as (st2 & G2).
    { destruct (forall2_nth _ _ _ HF _ _ Ek) as (b & _ & Hb). eauto. }
    eapply IH; eauto.
Qed.
End D.
