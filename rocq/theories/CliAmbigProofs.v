(* Structural ambiguity of patterns: the rules are broken if, and only if there are matches
   with two different values. *)
From Coq Require Import List Arith Bool Lia.
From Verif Require Import CliPatternModel CliPatternSpec CliTreeProofs CliSpecModel CliRecorderModel CliRecorderSpec.
Import ListNotations.

(* nullable, by recursion *)
Fixpoint nul_e (e : telem) : bool :=
  match e with ESym _ _ => false | EOpt _ => true | ERep q => nul_q q | EAlt b => nul_b b end
with nul_q (q : tseq) : bool := match q with SNil => true | SCons e q => nul_e e && nul_q q end
with nul_b (b : tbranches) : bool := match b with BOne q => nul_q q | BCons q b => nul_q q || nul_b b end.

(* repeating, by recursion *)
Fixpoint rp_e (e : telem) : bool :=
  match e with ESym _ _ => false | EOpt q => rp_q q | ERep _ => true | EAlt b => rp_b b end
with rp_q (q : tseq) : bool := match q with SNil => false | SCons e q => (rp_e e && nul_q q) || (nul_e e && rp_q q) end
with rp_b (b : tbranches) : bool := match b with BOne q => rp_q q | BCons q b => rp_q q || rp_b b end.

Fixpoint multi (b : tbranches) : bool :=
  match b with BOne _ => false | BCons q b => (nul_q q && nul_b b) || multi b end.

(* no rule is broken *)
Fixpoint ok_e (e : telem) : bool :=
  match e with
  | ESym _ _ => true
  | EOpt q => ok_q q && negb (nul_q q)
  | ERep q => ok_q q && negb (nul_q q) && negb (rp_q q)
  | EAlt b => ok_b b && negb (multi b)
  end
with ok_q (q : tseq) : bool := match q with SNil => true | SCons e q => ok_e e && ok_q q end
with ok_b (b : tbranches) : bool := match b with BOne q => ok_q q | BCons q b => ok_q q && ok_b b end.

Lemma m_rep_nil q w : m_elem (ERep q) w -> w = [] -> m_seq q [].
Proof.
  intros H. remember (ERep q) as e eqn:E. induction H; try discriminate; injection E as ->; intros Hw.
  - now subst.
  - apply app_eq_nil in Hw as [-> _]. assumption.
Qed.

Lemma nul_iff :
  (forall e, nul_e e = true <-> m_elem e []) /\ (forall q, nul_q q = true <-> m_seq q []) /\
  (forall b, nul_b b = true <-> m_branches b []).
Proof.
  apply tree_ind.
  - intros i s. cbn. split; [discriminate|]. intros H. inversion H.
  - intros q _. cbn. split; [constructor|auto].
  - intros q IH. cbn [nul_e]. rewrite IH. split; [now apply m_rep_last|]. intros H. now apply (m_rep_nil q []).
  - intros b IH. cbn [nul_e]. rewrite IH. split; [now constructor|]. intros H. now inversion H.
  - cbn. split; [constructor|auto].
  - intros e IHe q IHq. cbn [nul_q]. rewrite andb_true_iff, IHe, IHq. split.
    + intros [A B]. now apply (m_cons e q [] []).
    + intros H. inversion H as [|? ? w1 w2 H1 H2 X Y]; subst. apply app_eq_nil in Y as [-> ->]. auto.
  - intros q IH. cbn [nul_b]. rewrite IH. split; [now constructor|]. intros H. now inversion H.
  - intros q IHq b IHb. cbn [nul_b]. rewrite orb_true_iff, IHq, IHb. split.
    + intros [H|H]; [now apply m_this|now apply m_other].
    + intros H. inversion H; subst; auto.
Qed.
Lemma nul_q_iff q : nul_q q = true <-> nullable q. Proof. apply nul_iff. Qed.
Lemma nul_q_false q : nul_q q = false <-> ~ nullable q.
Proof. rewrite <- nul_q_iff. destruct (nul_q q); split; congruence. Qed.

(* branches *)
Lemma m_branches_iff b w : m_branches b w <-> exists k q, branch b k = Some q /\ m_seq q w.
Proof.
  split.
  - induction 1 as [q w H|q b w H|q b w H (k & q' & E & M)].
    + exists 0, q. auto.
    + exists 0, q. auto.
    + exists (S k), q'. auto.
  - intros (k & q & E & M). revert k E. induction b as [q0|q0 b IH]; intros [|k] E; cbn [branch] in E.
    + injection E as ->. now constructor.
    + discriminate.
    + injection E as ->. now apply m_this.
    + apply m_other. now apply (IH k).
Qed.

Lemma nul_b_iff b : nul_b b = true <-> exists k q, branch b k = Some q /\ nullable q.
Proof.
  rewrite (proj2 (proj2 nul_iff)). apply m_branches_iff.
Qed.

Lemma multi_iff b : multi b = true <-> exists i j qi qj, i < j /\ branch b i = Some qi /\ branch b j = Some qj /\ nullable qi /\ nullable qj.
Proof.
  induction b as [q|q b IH]; cbn [multi].
  - split; [discriminate|]. intros (i & [|j] & qi & qj & L & A & B & _); cbn [branch] in *; [lia|discriminate].
  - rewrite orb_true_iff, andb_true_iff, IH. split.
    + intros [[A B]|(i & j & qi & qj & L & A & B & C & D)].
      * apply nul_b_iff in B as (k & q' & E & N). exists 0, (S k), q, q'. rewrite <- nul_q_iff.
        split; [lia|]. cbn [branch]. auto.
      * exists (S i), (S j), qi, qj. split; [lia|]. cbn [branch]. auto.
    + intros ([|i] & [|j] & qi & qj & L & A & B & C & D); cbn [branch] in *; try lia.
      * injection A as ->. left. split; [now apply nul_q_iff|]. apply nul_b_iff. eauto.
      * right. exists i, j, qi, qj. split; [lia|]. auto.
Qed.

Lemma ok_branch b k q : ok_b b = true -> branch b k = Some q -> ok_q q = true.
Proof.
  revert k. induction b as [q0|q0 b IH]; intros [|k]; cbn [ok_b branch]; intros H E; try discriminate.
  - now injection E as ->.
  - injection E as ->. now apply andb_true_iff in H as [H _].
  - apply andb_true_iff in H as [_ H]. now apply (IH k).
Qed.

(* ---- positions ---- *)

Definition from (l : list (nat * psym)) (lo : nat) : Prop := map fst l = List.seq lo (length l).

Lemma from_app l1 l2 lo : from (l1 ++ l2) lo <-> from l1 lo /\ from l2 (lo + length l1).
Proof.
  unfold from. rewrite map_app, app_length, List.seq_app. split.
  - intros H. assert (E : length (map fst l1) = length (List.seq lo (length l1))) by now rewrite map_length, seq_length.
    split.
    + apply (f_equal (firstn (length (map fst l1)))) in H. rewrite firstn_app, Nat.sub_diag, firstn_all, firstn_O, app_nil_r in H.
      rewrite H, E, firstn_app, Nat.sub_diag, firstn_all, firstn_O, app_nil_r. reflexivity.
    + apply (f_equal (skipn (length (map fst l1)))) in H. rewrite skipn_app, Nat.sub_diag, skipn_all in H. cbn [app skipn] in H.
      rewrite H, E, skipn_app, Nat.sub_diag, skipn_all. reflexivity.
  - intros [-> ->]. reflexivity.
Qed.

Definition inside {A} (lo hi : nat) (w : list (nat * A)) : Prop := forall p a, In (p, a) w -> lo <= p < hi.

Lemma inside_app {A} lo hi (u v : list (nat * A)) : inside lo hi (u ++ v) <-> inside lo hi u /\ inside lo hi v.
Proof.
  unfold inside. split.
  - intros H. split; intros p a Hi; apply (H p a); apply in_app_iff; auto.
  - intros [H1 H2] p a Hi. apply in_app_iff in Hi as [Hi|Hi]; eauto.
Qed.
Lemma inside_nil {A} lo hi : inside (A := A) lo hi []. Proof. intros p a []. Qed.
Lemma inside_mono {A} lo hi lo' hi' (w : list (nat * A)) : lo' <= lo -> hi <= hi' -> inside lo hi w -> inside lo' hi' w.
Proof. intros H1 H2 H p a Hi. specialize (H p a Hi). lia. Qed.

(* the range of a branch *)
Lemma branch_range b lo : from (branches_syms b) lo -> forall k q, branch b k = Some q ->
  exists l, lo <= l /\ l + length (seq_syms q) <= lo + length (branches_syms b) /\ from (seq_syms q) l.
Proof.
  revert lo. induction b as [q0|q0 b IH]; intros lo H [|k] q; cbn [branch branches_syms] in *; intros E; try discriminate.
  - injection E as ->. exists lo. auto.
  - injection E as ->. apply from_app in H as [H _]. exists lo. rewrite app_length. split; [lia|]. split; [lia|exact H].
  - apply from_app in H as [_ H]. destruct (IH _ H k q E) as (l & A & B & C). exists l. rewrite app_length. split; [lia|]. split; [lia|exact C].
Qed.

(* different branches have different ranges *)
Lemma branch_ranges b lo : from (branches_syms b) lo -> forall i j qi qj, i < j -> branch b i = Some qi -> branch b j = Some qj ->
  exists li lj, lo <= li /\ li + length (seq_syms qi) <= lj /\ lj + length (seq_syms qj) <= lo + length (branches_syms b) /\
    from (seq_syms qi) li /\ from (seq_syms qj) lj.
Proof.
  revert lo. induction b as [q0|q0 b IH]; intros lo H [|i] [|j] qi qj L; cbn [branch branches_syms] in *; intros A B; try lia; try discriminate.
  - injection A as ->. apply from_app in H as [H1 H2]. destruct (branch_range b _ H2 j qj B) as (l & X & Y & Z).
    exists lo, l. rewrite app_length. split; [lia|]. split; [lia|]. split; [lia|]. auto.
  - apply from_app in H as [H1 H2]. destruct (IH _ H2 i j qi qj ltac:(lia) A B) as (li & lj & X & Y & Z & U & V).
    exists li, lj. rewrite app_length. split; [lia|]. split; [lia|]. split; [lia|]. auto.
Qed.

Lemma words_inside :
  (forall e w, m_elem e w -> forall lo, from (elem_syms e) lo -> inside lo (lo + length (elem_syms e)) w) /\
  (forall q w, m_seq q w -> forall lo, from (seq_syms q) lo -> inside lo (lo + length (seq_syms q)) w) /\
  (forall b w, m_branches b w -> forall lo, from (branches_syms b) lo -> inside lo (lo + length (branches_syms b)) w).
Proof.
  set (P := fun e w (_ : m_elem e w) => forall lo, from (elem_syms e) lo -> inside lo (lo + length (elem_syms e)) w).
  set (Q := fun q w (_ : m_seq q w) => forall lo, from (seq_syms q) lo -> inside lo (lo + length (seq_syms q)) w).
  set (R := fun b w (_ : m_branches b w) => forall lo, from (branches_syms b) lo -> inside lo (lo + length (branches_syms b)) w).
  cut ((forall e w (H : m_elem e w), P e w H) /\ (forall q w (H : m_seq q w), Q q w H) /\ (forall b w (H : m_branches b w), R b w H)).
  { unfold P, Q, R. intros (H1 & H2 & H3). repeat split; intros; [eapply H1|eapply H1|eapply H2|eapply H2|eapply H3|eapply H3]; eauto. }
  apply m_ind; unfold P, Q, R; clear P Q R; cbn [elem_syms seq_syms branches_syms].
  - intros i s lo H p a [E|[]]. injection E as <- <-. unfold from in H. cbn in H. injection H as ->. cbn. lia.
  - intros q lo H. apply inside_nil.
  - auto.
  - auto.
  - intros q w1 w2 H1 IH1 H2 IH2 lo H. apply inside_app. auto.
  - auto.
  - intros lo _. apply inside_nil.
  - intros e q w1 w2 H1 IH1 H2 IH2 lo H. apply from_app in H as [A B]. rewrite app_length. apply inside_app. split.
    + eapply inside_mono; [| |apply IH1; eassumption]; lia.
    + eapply inside_mono; [| |apply IH2; eassumption]; lia.
  - auto.
  - intros q b w H1 IH lo H. apply from_app in H as [A B]. rewrite app_length. eapply inside_mono; [| |apply IH; eassumption]; lia.
  - intros q b w H1 IH lo H. apply from_app in H as [A B]. rewrite app_length. eapply inside_mono; [| |apply IH; eassumption]; lia.
Qed.

Lemma seq_inside q w lo : m_seq q w -> from (seq_syms q) lo -> inside lo (lo + length (seq_syms q)) w.
Proof. intros H. now apply words_inside. Qed.
Lemma elem_inside e w lo : m_elem e w -> from (elem_syms e) lo -> inside lo (lo + length (elem_syms e)) w.
Proof. intros H. now apply words_inside. Qed.

(* two splits at the same border *)
Lemma split_same {A} lo mid hi (u v u' v' : list (nat * A)) :
  inside lo mid u -> inside mid hi v -> inside lo mid u' -> inside mid hi v' -> u ++ v = u' ++ v' -> u = u' /\ v = v'.
Proof.
  revert u'. induction u as [|[p a] u IH]; intros u' Hu Hv Hu' Hv' E.
  - destruct u' as [|[p a] u']; [auto|]. cbn [app] in E. subst v.
    specialize (Hv p a ltac:(now left)). specialize (Hu' p a ltac:(now left)). lia.
  - destruct u' as [|[p' a'] u'].
    + cbn [app] in E. subst v'. specialize (Hv' p a ltac:(now left)). specialize (Hu p a ltac:(now left)). lia.
    + cbn [app] in E. injection E as <- <- E. destruct (IH u') as [-> ->]; auto.
      * intros x b Hi. apply (Hu x b). now right.
      * intros x b Hi. apply (Hu' x b). now right.
Qed.

(* ---- a pattern that matches w and ww ---- *)

Lemma inside_both {A} lo mid hi (w : list (nat * A)) : inside lo mid w -> inside mid hi w -> w = [].
Proof.
  destruct w as [|[p a] w]; [auto|]. intros H1 H2. specialize (H1 p a ltac:(now left)). specialize (H2 p a ltac:(now left)). lia.
Qed.

Lemma no_return {A} lo mid hi (u : list (nat * A)) p a v : forall x1 x2, inside lo mid x1 -> inside mid hi x2 ->
  x1 ++ x2 = u ++ (p, a) :: v -> mid <= p -> inside mid hi v.
Proof.
  induction u as [|[p1 a1] u IH]; intros [|[p2 a2] x1] x2 H1 H2 E Hp; cbn [app] in E.
  - subst x2. intros y b Hi. apply (H2 y b). now right.
  - injection E as -> -> _. specialize (H1 p a ltac:(now left)). lia.
  - subst x2. intros y b Hi. apply (H2 y b). right. apply in_app_iff. right. now right.
  - injection E as _ _ E. apply (IH x1 x2); auto. intros y b Hi. apply (H1 y b). now right.
Qed.

Lemma twice :
  (forall e lo w, from (elem_syms e) lo -> w <> [] -> m_elem e w -> m_elem e (w ++ w) -> nul_e e || rp_e e = true) /\
  (forall q lo w, from (seq_syms q) lo -> w <> [] -> m_seq q w -> m_seq q (w ++ w) -> nul_q q || rp_q q = true) /\
  (forall b lo w, from (branches_syms b) lo -> w <> [] -> m_branches b w -> m_branches b (w ++ w) -> nul_b b || rp_b b = true).
Proof.
  apply tree_ind; cbn [elem_syms seq_syms branches_syms nul_e nul_q nul_b rp_e rp_q rp_b].
  - intros i s lo w _ Hw H1 H2. inversion H1; subst. inversion H2.
  - reflexivity.
  - intros. apply orb_true_r.
  - intros b IH lo w F Hw H1 H2. inversion H1; subst. inversion H2; subst. eauto.
  - reflexivity.
  - intros e IHe q IHq lo w F Hw H1 H2. apply from_app in F as [Fe Fq].
    inversion H1 as [|? ? w1 w2 A B X Y]; subst. inversion H2 as [|? ? x1 x2 C D X Y]; subst.
    pose proof (elem_inside _ _ _ A Fe) as Ia. pose proof (seq_inside _ _ _ B Fq) as Ib.
    pose proof (elem_inside _ _ _ C Fe) as Ic. pose proof (seq_inside _ _ _ D Fq) as Id.
    destruct w2 as [|[p a] w2].
    + rewrite !app_nil_r in *.
      destruct (split_same _ _ _ x1 x2 (w1 ++ w1) [] Ic Id) as [-> ->];
        [now apply inside_app|apply inside_nil|now rewrite app_nil_r|].
      assert (N : nul_q q = true) by now apply nul_iff.
      specialize (IHe lo w1 Fe Hw A C). rewrite N, !andb_true_r. destruct (nul_e e), (rp_e e); auto.
    + assert (w1 = []) as ->.
      { destruct w1 as [|[p1 a1] w1]; [reflexivity|exfalso].
        assert (I : inside (lo + length (elem_syms e)) (lo + length (elem_syms e) + length (seq_syms q)) (w2 ++ ((p1, a1) :: w1) ++ (p, a) :: w2)).
        { apply (no_return lo _ _ ((p1, a1) :: w1) p a _ x1 x2 Ic Id); [|specialize (Ib p a ltac:(now left)); lia].
          rewrite Y, <- app_assoc. reflexivity. }
        specialize (I p1 a1 ltac:(apply in_app_iff; right; now left)). specialize (Ia p1 a1 ltac:(now left)). lia. }
      cbn [app] in *.
      destruct (split_same _ _ _ x1 x2 [] ((p, a) :: w2 ++ (p, a) :: w2) Ic Id) as [-> ->];
        [apply inside_nil| |exact Y|].
      { change ((p, a) :: w2 ++ (p, a) :: w2) with (((p, a) :: w2) ++ (p, a) :: w2). now apply inside_app. }
      assert (N : nul_e e = true) by now apply nul_iff.
      specialize (IHq _ _ Fq Hw B D). rewrite N. cbn [andb]. destruct (nul_q q), (rp_q q), (rp_e e); auto.
  - intros q IH lo w F Hw H1 H2. inversion H1; subst. inversion H2; subst. eauto.
  - intros q IHq b IHb lo w F Hw H1 H2. apply from_app in F as [Fq Fb].
    assert (D : m_seq q w /\ m_seq q (w ++ w) \/ m_branches b w /\ m_branches b (w ++ w)).
    { inversion H1; inversion H2; subst; auto; exfalso.
      - assert (X : inside lo (lo + length (seq_syms q)) w) by now apply seq_inside.
        assert (Y : inside (lo + length (seq_syms q)) (lo + length (seq_syms q) + length (branches_syms b)) (w ++ w))
          by now apply (proj2 (proj2 words_inside)).
        apply inside_app in Y as [Y _]. apply Hw. exact (inside_both _ _ _ _ X Y).
      - assert (X : inside lo (lo + length (seq_syms q)) (w ++ w)) by now apply seq_inside.
        assert (Y : inside (lo + length (seq_syms q)) (lo + length (seq_syms q) + length (branches_syms b)) w)
          by now apply (proj2 (proj2 words_inside)).
        apply inside_app in X as [X _]. apply Hw. exact (inside_both _ _ _ _ X Y). }
    destruct D as [[A B]|[A B]].
    + specialize (IHq _ _ Fq Hw A B). destruct (nul_q q), (rp_q q), (nul_b b), (rp_b b); auto.
    + specialize (IHb _ _ Fb Hw A B). destruct (nul_b b), (rp_b b), (nul_q q), (rp_q q); auto.
Qed.

Lemma repeating_found q lo : from (seq_syms q) lo -> repeating q -> nul_q q = true \/ rp_q q = true.
Proof.
  intros F (w & Hw & H). apply orb_true_iff. apply (proj1 (proj2 twice) q lo w F Hw).
  - specialize (H 0). cbn [repeat concat] in H. now rewrite app_nil_r in H.
  - specialize (H 1). cbn [repeat concat] in H. now rewrite app_nil_r in H.
Qed.

(* ---- words exist ---- *)

Lemma some_word :
  (forall e, exists w, m_elem e w) /\ (forall q, exists w, m_seq q w) /\ (forall b, exists w, m_branches b w).
Proof.
  apply tree_ind.
  - intros i s. eexists. constructor.
  - intros q _. exists []. constructor.
  - intros q (w & H). exists w. now constructor.
  - intros b (w & H). exists w. now constructor.
  - exists []. constructor.
  - intros e (w1 & H1) q (w2 & H2). exists (w1 ++ w2). now constructor.
  - intros q (w & H). exists w. now constructor.
  - intros q (w & H) b _. exists w. now apply m_this.
Qed.

Lemma rep_power q w k : m_seq q w -> m_elem (ERep q) (concat (repeat w (S k))).
Proof.
  intros H. induction k as [|k IH].
  - cbn [repeat concat]. rewrite app_nil_r. now apply m_rep_last.
  - change (concat (repeat w (S (S k)))) with (w ++ concat (repeat w (S k))). now apply m_rep_more.
Qed.

(* ---- repeating patterns do repeat ---- *)
Lemma rp_word :
  (forall e, ok_e e = true -> rp_e e = true -> exists w, w <> [] /\ forall k, m_elem e (concat (repeat w (S k)))) /\
  (forall q, ok_q q = true -> rp_q q = true -> exists w, w <> [] /\ forall k, m_seq q (concat (repeat w (S k)))) /\
  (forall b, ok_b b = true -> rp_b b = true -> exists w, w <> [] /\ forall k, m_branches b (concat (repeat w (S k)))).
Proof.
  apply tree_ind; cbn [ok_e ok_q ok_b rp_e rp_q rp_b].
  - discriminate.
  - intros q IH H1 H2. apply andb_true_iff in H1 as [H1 _]. destruct (IH H1 H2) as (w & Hw & H). exists w. split; [exact Hw|].
    intros k. apply m_opt_present, H.
  - intros q _ H _. apply andb_true_iff in H as [H _]. apply andb_true_iff in H as [_ H].
    destruct (proj1 (proj2 some_word) q) as (w & Hw). exists w. split.
    + intros ->. apply nul_q_iff in Hw. rewrite Hw in H. discriminate.
    + intros k. now apply rep_power.
  - intros b IH H1 H2. apply andb_true_iff in H1 as [H1 _]. destruct (IH H1 H2) as (w & Hw & H). exists w. split; [exact Hw|].
    intros k. constructor. apply H.
  - discriminate.
  - intros e IHe q IHq H1 H2. apply andb_true_iff in H1 as [O1 O2]. apply orb_true_iff in H2 as [H2|H2]; apply andb_true_iff in H2 as [A B].
    + destruct (IHe O1 A) as (w & Hw & H). exists w. split; [exact Hw|]. intros k. rewrite <- (app_nil_r (concat _)).
      constructor; [apply H|]. now apply nul_iff.
    + destruct (IHq O2 B) as (w & Hw & H). exists w. split; [exact Hw|]. intros k.
      apply (m_cons e q [] (concat (repeat w (S k)))); [now apply nul_iff|apply H].
  - intros q IH H1 H2. destruct (IH H1 H2) as (w & Hw & H). exists w. split; [exact Hw|]. intros k. constructor. apply H.
  - intros q IHq b IHb H1 H2. apply andb_true_iff in H1 as [O1 O2]. apply orb_true_iff in H2 as [A|A].
    + destruct (IHq O1 A) as (w & Hw & H). exists w. split; [exact Hw|]. intros k. apply m_this, H.
    + destruct (IHb O2 A) as (w & Hw & H). exists w. split; [exact Hw|]. intros k. apply m_other, H.
Qed.

Lemma rp_repeating q : ok_q q = true -> rp_q q = true -> repeating q.
Proof. exact (proj1 (proj2 rp_word) q). Qed.

(* ---- no rule broken, by recursion and as specified ---- *)

Scheme flaw_elem_mut := Induction for flaw_elem Sort Prop
with flaw_seq_mut := Induction for flaw_seq Sort Prop.
Combined Scheme flaw_ind from flaw_elem_mut, flaw_seq_mut.

Lemma flaw_not_ok m :
  (forall e, flaw_elem m e -> forall lo, from (elem_syms e) lo -> ok_e e = false) /\
  (forall q, flaw_seq m q -> forall lo, from (seq_syms q) lo -> ok_q q = false).
Proof.
  set (P := fun e (_ : flaw_elem m e) => forall lo, from (elem_syms e) lo -> ok_e e = false).
  set (Q := fun q (_ : flaw_seq m q) => forall lo, from (seq_syms q) lo -> ok_q q = false).
  cut ((forall e (H : flaw_elem m e), P e H) /\ (forall q (H : flaw_seq m q), Q q H)).
  { unfold P, Q. intros [A B]. split; intros; eauto. }
  apply flaw_ind; unfold P, Q; clear P Q; cbn [elem_syms seq_syms ok_e ok_q].
  - intros q _ N lo F. apply nul_q_iff in N. rewrite N. apply andb_false_r.
  - intros q _ N lo F. apply nul_q_iff in N. rewrite N. cbn [negb]. now rewrite andb_false_r.
  - intros q _ R lo F. destruct (repeating_found q lo F R) as [->| ->]; cbn [negb]; now rewrite ?andb_false_r.
  - intros b i j qi qj _ L A B Ni Nj lo F. assert (M : multi b = true) by (apply multi_iff; exists i, j, qi, qj; auto).
    rewrite M. apply andb_false_r.
  - intros q H IH lo F. now rewrite (IH lo F).
  - intros q H IH lo F. now rewrite (IH lo F).
  - intros b i q E H IH lo F. destruct (branch_range b lo F i q E) as (l & _ & _ & Fq). specialize (IH l Fq).
    destruct (ok_b b) eqn:O; [|reflexivity]. rewrite (ok_branch b i q O E) in IH. discriminate.
  - intros e q H IH lo F. apply from_app in F as [F _]. now rewrite (IH lo F).
  - intros e q H IH lo F. apply from_app in F as [_ F]. rewrite (IH _ F). apply andb_false_r.
Qed.

Lemma not_ok_flaw :
  (forall e, ok_e e = false -> exists m, flaw_elem m e) /\
  (forall q, ok_q q = false -> exists m, flaw_seq m q) /\
  (forall b, ok_b b = false -> exists m k q, branch b k = Some q /\ flaw_seq m q).
Proof.
  apply tree_ind; cbn [ok_e ok_q ok_b].
  - discriminate.
  - intros q IH H. destruct (ok_q q) eqn:O; cbn [andb] in H.
    + exists opt_nullable. apply flaw_opt; [reflexivity|]. apply nul_q_iff. destruct (nul_q q); [reflexivity|discriminate].
    + destruct (IH eq_refl) as (m & F). exists m. now apply flaw_in_opt.
  - intros q IH H. destruct (ok_q q) eqn:O; cbn [andb] in H.
    + destruct (nul_q q) eqn:N; cbn [negb andb] in H.
      * exists rep_nullable. apply flaw_rep_1; [reflexivity|now apply nul_q_iff].
      * exists rep_repeating. apply flaw_rep_2; [reflexivity|]. apply rp_repeating; [exact O|]. destruct (rp_q q); [reflexivity|discriminate].
    + destruct (IH eq_refl) as (m & F). exists m. now apply flaw_in_rep.
  - intros b IH H. destruct (ok_b b) eqn:O; cbn [andb] in H.
    + assert (M : multi b = true) by (destruct (multi b); [reflexivity|discriminate]).
      apply multi_iff in M as (i & j & qi & qj & L & A & B & C & D). exists alt_nullable. now apply (flaw_alt _ b i j qi qj).
    + destruct (IH eq_refl) as (m & k & q & E & F). exists m. now apply (flaw_in_alt m b k q).
  - discriminate.
  - intros e IHe q IHq H. apply andb_false_iff in H as [H|H].
    + destruct (IHe H) as (m & F). exists m. now apply flaw_here.
    + destruct (IHq H) as (m & F). exists m. now apply flaw_later.
  - intros q IH H. destruct (IH H) as (m & F). exists m, 0, q. auto.
  - intros q IHq b IHb H. apply andb_false_iff in H as [H|H].
    + destruct (IHq H) as (m & F). exists m, 0, q. auto.
    + destruct (IHb H) as (m & k & q' & E & F). exists m, (S k), q'. auto.
Qed.

Lemma ok_iff q : numbered q -> (ok_q q = true <-> forall m, ~ flaw_seq m q).
Proof.
  intros N. split.
  - intros O m F. rewrite (proj2 (flaw_not_ok m) q F 0 N) in O. discriminate.
  - intros H. destruct (ok_q q) eqn:O; [reflexivity|]. destruct (proj1 (proj2 not_ok_flaw) q O) as (m & F). now destruct (H m).
Qed.
