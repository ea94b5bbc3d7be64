(* Sets of positions of the NFA that are reached by sequences of symbols, and their relation
   to what the patterns match. *)
From Coq Require Import List Arith Bool Lia Sorted.
From Verif Require Import CliPatternModel CliPatternSpec CliGlushkov CliTreeProofs CliBuilderProofs CliNfaProofs CliMatcherModel CliMatcherSpec.
Import ListNotations.

Section Reach.
  Variables (n : nfa) (ts : list tseq).
  Hypothesis K : nfa_ok n ts.
  Hypothesis Hnum : Forall numbered ts.
  Let N := length (n_positions n).
  Notation at_pos p pos := (nth_error (n_positions n) p = Some pos).

  (* a position is at a place in a pattern *)
  Definition placed (p i k : nat) (t : tseq) : Prop := nth_error ts i = Some t /\ k <= size t /\ p = offs ts i + k.

  Lemma position_place p pos : at_pos p pos -> exists t, placed p (p_pattern pos) (p_ipos pos) t.
  Proof.
    intros E. assert (Hp : p < length (n_positions n)) by (apply nth_error_Some; congruence).
    destruct (in_block n ts K p Hp) as (i & t & Et & R). pose proof (ok_block _ _ K i t Et) as B.
    assert (P : p_pattern pos = i /\ p_ipos pos = p - offs ts i).
    { destruct (Nat.eq_dec p (offs ts i + size t)) as [->|Hne].
      - destruct (info_nth 0 t n _ _ (blk_term _ _ _ _ B)) as (pos' & E' & _ & I'). assert (pos' = pos) by congruence. subst pos'.
        injection I' as -> <- _. lia.
      - destruct (nth_error (seq_syms t) (p - offs ts i)) as [x|] eqn:Ex; [|apply nth_error_None in Ex; unfold size in *; lia].
        pose proof (blk_sym _ _ _ _ B _ _ Ex) as Hs. replace (offs ts i + (p - offs ts i)) with p in Hs by lia.
        destruct (info_nth 0 t n _ _ Hs) as (pos' & E' & _ & I'). assert (pos' = pos) by congruence. subst pos'.
        assert (Hn : numbered t). { rewrite Forall_forall in Hnum. apply Hnum. eapply nth_error_In; eassumption. }
        pose proof (map_nth_error fst _ _ Ex) as Hm. rewrite Hn in Hm.
        assert (Hk : p - offs ts i < length (seq_syms t)) by (apply nth_error_Some; congruence).
        rewrite (nth_error_nth' _ 0) in Hm by now rewrite seq_length. rewrite seq_nth in Hm by assumption.
        injection Hm as Hm. injection I' as -> Ix. rewrite Ix in Hm. cbn [fst snd] in *. lia. }
    destruct P as [P1 P2]. exists t. unfold placed. rewrite P1, P2. repeat split; [assumption|lia|lia].
  Qed.

  Lemma placed_position p i k t : placed p i k t -> exists pos, at_pos p pos /\ p_pattern pos = i /\ p_ipos pos = k.
  Proof.
    intros (Et & Hk & ->). pose proof (offs_range n ts K i t Et) as Hr.
    destruct (nth_error (n_positions n) (offs ts i + k)) as [pos|] eqn:E; [|apply nth_error_None in E; lia].
    exists pos. split; [reflexivity|]. destruct (position_place _ _ E) as (u & Eu & Hku & Ho).
    assert (i = p_pattern pos).
    { apply (block_unique ts (offs ts i + k) i t _ u Et Eu); lia. }
    subst i. lia.
  Qed.

  (* a position is determined by its pattern and its place *)
  Lemma position_inj p q pos pos' : at_pos p pos -> at_pos q pos' -> p_pattern pos = p_pattern pos' -> p_ipos pos = p_ipos pos' -> p = q.
  Proof.
    intros E E' H1 H2. destruct (position_place _ _ E) as (t & Et & _ & ->). destruct (position_place _ _ E') as (t' & Et' & _ & ->).
    congruence.
  Qed.

  Lemma follow_place p pos q : at_pos p pos -> In q (p_follow pos) ->
    exists pos', at_pos q pos' /\ p_pattern pos' = p_pattern pos.
  Proof.
    intros E H. destruct (position_place _ _ E) as (t & Et & Hk & Ep). pose proof (ok_block _ _ K _ t Et) as B.
    assert (Hpath : nfa_path n p [(p_ipos pos, p_sym pos)] q) by (eapply path_cons; [exact E|exact H|constructor]).
    destruct (path_chain n _ _ t B p _ q Hpath ltac:(lia)) as [Hq _].
    destruct (block_pattern n _ _ t B q Hq) as (pos' & E' & P' & _). exists pos'. auto.
  Qed.

  Lemma follow_incr p pos : at_pos p pos -> incr (p_follow pos).
  Proof. intros E. pose proof (ok_incr _ _ K p) as H. unfold follow in H. now rewrite E in H. Qed.

  Lemma final_iff p pos t : at_pos p pos -> nth_error ts (p_pattern pos) = Some t -> (p_follow pos = [] <-> p_ipos pos = size t).
  Proof.
    intros E Et. destruct (position_place _ _ E) as (t' & Et' & Hk & Ep). assert (t' = t) by congruence. subst t'.
    pose proof (ok_block _ _ K _ t Et) as B. pose proof (block_final n _ _ t B p ltac:(lia)) as H.
    unfold follow in H. rewrite E in H. rewrite H. lia.
  Qed.

  (* final positions come in the order of their patterns *)
  Lemma final_order p q pos pos' : at_pos p pos -> at_pos q pos' -> p < q -> p_follow pos = [] -> p_follow pos' = [] ->
    p_pattern pos < p_pattern pos'.
  Proof.
    intros E E' Hlt F F'. destruct (position_place _ _ E) as (t & Et & Hk & Ep). destruct (position_place _ _ E') as (t' & Et' & Hk' & Ep').
    apply (final_iff _ _ _ E Et) in F. apply (final_iff _ _ _ E' Et') in F'.
    destruct (Nat.lt_trichotomy (p_pattern pos) (p_pattern pos')) as [H|[H|H]]; [exact H|exfalso|exfalso].
    - rewrite H in *. assert (t = t') by congruence. subst t'. lia.
    - pose proof (offs_succ ts _ _ Et') as Ho. assert (p_pattern pos < length ts) by (apply nth_error_Some; congruence).
      pose proof (offs_mono ts (S (p_pattern pos')) (p_pattern pos) ltac:(lia) ltac:(lia)). lia.
  Qed.

  Lemma path_out p pos : at_pos p pos -> exists w z pos', nfa_path n p w z /\ at_pos z pos' /\ p_follow pos' = [] /\ p_pattern pos' = p_pattern pos.
  Proof.
    intros E. destruct (position_place _ _ E) as (t & Et & Hk & Ep). pose proof (ok_block _ _ K _ t Et) as B.
    destruct (block_out n _ _ t B p ltac:(lia)) as (w & Hw). destruct (block_pattern n _ _ t B (offs ts (p_pattern pos) + size t) ltac:(lia)) as (pos' & E' & P' & F').
    exists w, (offs ts (p_pattern pos) + size t), pos'. repeat split; try assumption. rewrite F'. apply (blk_final _ _ _ _ B).
  Qed.

  (* ---- paths ---- *)

  Lemma path_app p w q v z : nfa_path n p w q -> nfa_path n q v z -> nfa_path n p (w ++ v) z.
  Proof. induction 1 as [p|p pos r w q E F H IH]; intros Hv; cbn [app]; [assumption|]. eapply path_cons; eauto. Qed.

  Lemma path_split w : forall p v z, nfa_path n p (w ++ v) z -> exists q, nfa_path n p w q /\ nfa_path n q v z.
  Proof.
    induction w as [|x w IH]; intros p v z H; cbn [app] in H.
    - exists p. split; [constructor|exact H].
    - inversion H as [|p' pos q w' r E F H' E1 E2 E3]; subst. destruct (IH _ _ _ H') as (q' & H1 & H2). exists q'. split; [|exact H2].
      eapply path_cons; eauto.
  Qed.

  Lemma path_one p x q : nfa_path n p [x] q <-> exists pos, at_pos p pos /\ In q (p_follow pos) /\ x = (p_ipos pos, p_sym pos).
  Proof.
    split.
    - intros H. inversion H as [|p' pos q' w' r E F H' E1 E2 E3]; subst. inversion H'; subst. eauto.
    - intros (pos & E & F & ->). eapply path_cons; [exact E|exact F|constructor].
  Qed.

  Lemma path_end p w q : nfa_path n p w q -> p < N -> exists pos, at_pos q pos.
  Proof.
    induction 1 as [p|p pos r w q E F H IH]; intros Hp.
    - destruct (nth_error (n_positions n) p) as [pos|] eqn:E; [eauto|apply nth_error_None in E; unfold N in Hp; lia].
    - apply IH. destruct (follow_place _ _ _ E F) as (pos' & E' & _). apply nth_error_Some. congruence.
  Qed.

  Lemma path_pattern p w q pos pos' : nfa_path n p w q -> at_pos p pos -> at_pos q pos' -> p_pattern pos' = p_pattern pos.
  Proof.
    intros H. revert pos. induction H as [p|p pos0 r w q E F H IH]; intros pos Ep Eq.
    - congruence.
    - assert (pos0 = pos) by congruence. subst pos0. destruct (follow_place _ _ _ E F) as (pos2 & E2 & P2).
      rewrite <- P2. now apply IH.
  Qed.

  (* ---- sets of positions ---- *)

  Definition reach (w : list psym) (q : nat) : Prop :=
    exists p mw, In p (n_start n) /\ nfa_path n p mw q /\ map snd mw = w.

  Definition step (X : nat -> Prop) (s : psym) (q : nat) : Prop :=
    exists p pos, X p /\ at_pos p pos /\ p_sym pos = s /\ In q (p_follow pos).

  Lemma reach_nil q : reach [] q <-> In q (n_start n).
  Proof.
    split.
    - intros (p & mw & Hs & Hp & E). destruct mw; [|discriminate]. inversion Hp; subst. exact Hs.
    - intros H. exists q, []. repeat split; [exact H|constructor].
  Qed.

  Lemma reach_snoc w s q : reach (w ++ [s]) q <-> step (reach w) s q.
  Proof.
    split.
    - intros (p & mw & Hs & Hp & E). destruct (exists_last (l := mw)) as (mw' & x & ->).
      { intros ->. cbn [map] in E. destruct w; discriminate. }
      rewrite map_app in E. cbn [map] in E. apply app_inj_tail in E as [E1 E2]. apply path_split in Hp as (r & H1 & H2).
      apply path_one in H2 as (pos & Er & F & ->). exists r, pos. repeat split; try assumption. exists p, mw'. auto.
    - intros (r & pos & (p & mw & Hs & Hp & <-) & Er & <- & F). exists p, (mw ++ [(p_ipos pos, p_sym pos)]).
      split; [exact Hs|]. split; [|now rewrite map_app]. eapply path_app; [exact Hp|]. apply path_one. eauto.
  Qed.

  Lemma step_ext X Y s q : (forall p, X p <-> Y p) -> step X s q <-> step Y s q.
  Proof. intros H. unfold step. split; intros (p & pos & A & B); exists p, pos; (split; [now apply H|exact B]). Qed.

  Lemma reach_pos w q : reach w q -> exists pos, at_pos q pos.
  Proof. intros (p & mw & Hs & Hp & _). eapply path_end; [exact Hp|]. apply (ok_start _ _ K p Hs). Qed.

  Lemma reach_app w v q : reach (w ++ v) q <-> exists r mv, reach w r /\ nfa_path n r mv q /\ map snd mv = v.
  Proof.
    split.
    - intros (p & mw & Hs & Hp & E). apply map_eq_app in E as (m1 & m2 & -> & <- & <-). apply path_split in Hp as (r & H1 & H2).
      exists r, m2. repeat split; try assumption. exists p, m1. auto.
    - intros (r & mv & (p & mw & Hs & Hp & <-) & Hr & <-). exists p, (mw ++ mv). split; [exact Hs|].
      split; [now apply path_app with r|now rewrite map_app].
  Qed.

  (* ---- what the patterns match ---- *)

  Definition final_of (i q : nat) : Prop := exists pos, at_pos q pos /\ p_follow pos = [] /\ p_pattern pos = i.

  Lemma matches_iff i w : matches ts i w <-> exists q, reach w q /\ final_of i q.
  Proof.
    split.
    - intros (t & mw & Et & M & Ew). assert (A : nfa_accepts n i mw) by (apply (accepts_iff n ts K); eauto).
      destruct A as (p & r & pos & Hs & Hp & Er & F & Pi). exists r. split; [exists p, mw; auto|exists pos; auto].
    - intros (q & (p & mw & Hs & Hp & Ew) & pos & E & F & Pi).
      assert (A : nfa_accepts n i mw) by (exists p, q, pos; auto). apply (accepts_iff n ts K) in A as (t & Et & M).
      exists t, mw. auto.
  Qed.

  Lemma final_unique i p q : final_of i p -> final_of i q -> p = q.
  Proof.
    intros (pos & E & F & Pi) (pos' & E' & F' & Pi'). destruct (Nat.lt_trichotomy p q) as [H|[H|H]]; [|exact H|].
    - pose proof (final_order p q pos pos' E E' H F F'). lia.
    - pose proof (final_order q p pos' pos E' E H F' F). lia.
  Qed.

  Lemma viable_from w q : reach w q -> forall pos, at_pos q pos -> exists u, matches ts (p_pattern pos) (w ++ u).
  Proof.
    intros Hr pos E. destruct (path_out q pos E) as (mu & z & pos' & Hp & Ez & F & Pi). exists (map snd mu).
    apply matches_iff. exists z. split; [|exists pos'; auto]. apply reach_app. exists q, mu. auto.
  Qed.

  Lemma viable_iff w : viable ts w <-> exists q, reach w q.
  Proof.
    split.
    - intros (i & u & H). apply matches_iff in H as (q & Hr & _). apply reach_app in Hr as (r & mv & Hr & _). eauto.
    - intros (q & Hr). destruct (reach_pos _ _ Hr) as (pos & E). destruct (viable_from w q Hr pos E) as (u & H).
      exists (p_pattern pos), u. exact H.
  Qed.

  Lemma matches_range i w : matches ts i w -> i < length ts.
  Proof. intros (t & mw & Et & _). apply nth_error_Some. congruence. Qed.

  Lemma pattern_range p pos : at_pos p pos -> p_pattern pos < length ts.
  Proof. intros E. destruct (position_place _ _ E) as (t & Et & _). apply nth_error_Some. congruence. Qed.

  (* ---- ambiguity ---- *)

  (* two positions of a set lead to the same position through the same symbol *)
  Definition conflict (X : nat -> Prop) (p p' : nat) : Prop :=
    exists pos pos' q, X p /\ X p' /\ at_pos p pos /\ at_pos p' pos' /\ p_sym pos = p_sym pos' /\
      In q (p_follow pos) /\ In q (p_follow pos') /\ p <> p'.

  Lemma conflict_ambiguous w p p' : conflict (reach w) p p' ->
    exists pos pos', at_pos p pos /\ at_pos p' pos' /\ p_pattern pos = p_pattern pos' /\
      positions_ambiguous ts (p_pattern pos) (p_ipos pos) (p_ipos pos').
  Proof.
    intros (pos & pos' & q & (p0 & m1 & S1 & P1 & E1) & (p0' & m2 & S2 & P2 & E2) & Ep & Ep' & Es & F & F' & Hne).
    destruct (follow_place _ _ _ Ep F) as (posq & Eq & Pq). destruct (follow_place _ _ _ Ep' F') as (posq' & Eq' & Pq').
    assert (posq' = posq) by congruence. subst posq'. exists pos, pos'. repeat split; try assumption; [congruence|].
    destruct (path_out q posq Eq) as (v & z & posz & Pz & Ez & Fz & Pi).
    assert (A1 : nfa_accepts n (p_pattern pos) (m1 ++ (p_ipos pos, p_sym pos) :: v)).
    { exists p0, z, posz. repeat split; try assumption; [|congruence]. apply path_app with p; [exact P1|]. now apply path_cons with q. }
    assert (A2 : nfa_accepts n (p_pattern pos) (m2 ++ (p_ipos pos', p_sym pos) :: v)).
    { exists p0', z, posz. repeat split; try assumption; [|congruence]. apply path_app with p'; [exact P2|]. rewrite Es. now apply path_cons with q. }
    apply (accepts_iff n ts K) in A1 as (t & Et & M1). apply (accepts_iff n ts K) in A2 as (t' & Et' & M2).
    assert (t' = t) by congruence. subst t'.
    exists t, m1, m2, (p_sym pos), v. repeat split; try assumption; [congruence|].
    intros Hi. apply Hne. apply (position_inj p p' pos pos'); try assumption. congruence.
  Qed.

  Lemma paths_differ w1 : forall w2 p1 p2 q, nfa_path n p1 w1 q -> nfa_path n p2 w2 q -> map snd w1 = map snd w2 -> w1 <> w2 ->
    exists u1 u2 s v a b r r', w1 = u1 ++ (a, s) :: v /\ w2 = u2 ++ (b, s) :: v /\ map snd u1 = map snd u2 /\
      nfa_path n p1 u1 r /\ nfa_path n p2 u2 r' /\ r <> r' /\
      exists pos pos' z, at_pos r pos /\ at_pos r' pos' /\ p_sym pos = s /\ p_sym pos' = s /\ In z (p_follow pos) /\ In z (p_follow pos') /\
        p_ipos pos = a /\ p_ipos pos' = b.
  Proof.
    induction w1 as [|x w1 IH] using rev_ind; intros w2 p1 p2 q H1 H2 E Hne.
    { destruct w2; [contradiction|discriminate]. }
    destruct (exists_last (l := w2)) as (w2' & y & ->). { intros ->. rewrite map_app in E. destruct (map snd w1); discriminate. }
    rewrite !map_app in E. cbn [map] in E. apply app_inj_tail in E as [Ew Exy].
    apply path_split in H1 as (r & H1 & H1'). apply path_split in H2 as (r' & H2 & H2').
    apply path_one in H1' as (pos & Er & F & ->). apply path_one in H2' as (pos' & Er' & F' & ->). cbn [snd] in Exy.
    destruct (Nat.eq_dec r r') as [<-|Hr].
    - assert (pos' = pos) by congruence. subst pos'.
      destruct (IH w2' p1 p2 r H1 H2 Ew) as (u1 & u2 & s & v & a & b & z & z' & -> & -> & A); [congruence|].
      exists u1, u2, s, (v ++ [(p_ipos pos, p_sym pos)]), a, b, z, z'. rewrite <- !app_assoc. split; [reflexivity|]. split; [reflexivity|]. exact A.
    - exists w1, w2', (p_sym pos), [], (p_ipos pos), (p_ipos pos'), r, r'. rewrite Exy. repeat split; try assumption.
      exists pos, pos', q. auto 10.
  Qed.

  Lemma ambiguous_conflict i : positionally_ambiguous ts i -> exists w p p', conflict (reach w) p p'.
  Proof.
    intros (t & w1 & w2 & Et & M1 & M2 & E & Hne).
    assert (A1 : nfa_accepts n i w1) by (apply (accepts_iff n ts K); eauto).
    assert (A2 : nfa_accepts n i w2) by (apply (accepts_iff n ts K); eauto).
    destruct A1 as (p1 & z1 & pos1 & S1 & P1 & E1 & F1 & I1). destruct A2 as (p2 & z2 & pos2 & S2 & P2 & E2 & F2 & I2).
    assert (z1 = z2) by (apply (final_unique i); [exists pos1; auto|exists pos2; auto]). subst z2.
    destruct (paths_differ w1 w2 p1 p2 z1 P1 P2 E Hne) as (u1 & u2 & s & v & a & b & r & r' & _ & _ & Eu & R & R' & Hr & pos & pos' & z & B1 & B2 & B3 & B4 & B5 & B6 & _).
    exists (map snd u1), r, r'. exists pos, pos', z. repeat split; try assumption; try congruence.
    - exists p1, u1. auto.
    - exists p2, u2. auto.
  Qed.

  Lemma ambiguous_some i a b : positions_ambiguous ts i a b -> positionally_ambiguous ts i.
  Proof.
    intros (t & u1 & u2 & s & v & Et & M1 & M2 & E & Hne). exists t, (u1 ++ (a, s) :: v), (u2 ++ (b, s) :: v).
    repeat split; try assumption; [rewrite !map_app; cbn [map snd]; congruence|]. intros H.
    apply app_eq_app in H as (l & [[A B]|[A B]]).
    - subst u1. rewrite map_app in E. assert (l = []).
      { apply (f_equal (@length _)) in E. rewrite app_length, !map_length in E. destruct l; [reflexivity|cbn [length] in E; lia]. }
      subst l. cbn [app] in B. congruence.
    - subst u2. rewrite map_app in E. assert (l = []).
      { apply (f_equal (@length _)) in E. rewrite app_length, !map_length in E. destruct l; [reflexivity|cbn [length] in E; lia]. }
      subst l. cbn [app] in B. congruence.
  Qed.
End Reach.
