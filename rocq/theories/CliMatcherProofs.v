(* The DFA as a whole, and the matcher. *)
From Coq Require Import List Arith Bool Lia Sorted.
From Verif Require Import CliPatternModel CliPatternSpec CliBuilderProofs CliNfaProofs CliMatcherModel CliMatcherSpec CliReachProofs CliDfaProofs CliDfaProofs2 ArrLib.
Import ListNotations.

Section Matcher.
  Variables (n : nfa) (ts : list tseq) (config : mconfig) (delegs : list bool).
  Hypothesis K : nfa_ok n ts.
  Hypothesis Hnum : Forall numbered ts.
  Hypothesis Hdel : length delegs = length ts.
  Notation at_pos p pos := (nth_error (n_positions n) p = Some pos).

  Variable d : dfa.
  Hypothesis D : dinv n config d.
  Hypothesis D0 : nth_error (sets d) 0 = Some (n_start n).
  Hypothesis DT : forall s, In s (f_states d) -> trans_ok n config delegs d s.

  (* the state represents the positions reached by a sequence *)
  Definition state_at (k : nat) (w : list psym) : Prop :=
    exists l, nth_error (sets d) k = Some l /\ forall q, In q l <-> reach n w q.

  Lemma state_start : state_at 0 [].
  Proof. exists (n_start n). split; [exact D0|]. intros q. now rewrite reach_nil. Qed.

  Lemma state_get k w : state_at k w -> exists s, nth_error (f_states d) k = Some s /\
    (forall q, In q (frozen (f_elems d) (d_positions s)) <-> reach n w q) /\ incr (frozen (f_elems d) (d_positions s)) /\
    final_ok n config (frozen (f_elems d) (d_positions s)) (d_finalpos s) /\ trans_ok n config delegs d s.
  Proof.
    intros (l & E & H). destruct (nth_error (f_states d) k) as [s|] eqn:Es.
    - exists s. rewrite (sets_nth _ _ _ Es) in E. injection E as <-. split; [reflexivity|]. split; [exact H|].
      destruct (dv_static _ _ _ D _ (statics_in _ _ _ Es)) as [A B C F]. split; [exact B|]. split; [exact F|]. apply DT. eapply nth_error_In; exact Es.
    - exfalso. apply nth_error_None in Es. assert (k < length (sets d)) by (apply nth_error_Some; congruence).
      unfold sets in *. rewrite map_length, statics_length in *. lia.
  Qed.

  Lemma state_step k w s y : state_at k w -> nth_error (f_states d) k = Some s ->
    match map_find y (d_transitions s) with
    | Some t => state_at t (w ++ [y]) /\ exists q, reach n (w ++ [y]) q
    | None => forall q, ~ reach n (w ++ [y]) q
    end.
  Proof.
    intros Hs Es. destruct (state_get k w Hs) as (s' & Es' & Hr & _ & _ & (_ & T & _)). assert (s' = s) by congruence. subst s'.
    specialize (T y). assert (G : forall q, step n (fun x => In x (frozen (f_elems d) (d_positions s))) y q <-> reach n (w ++ [y]) q).
    { intros q. rewrite reach_snoc. now apply step_ext. }
    destruct (map_find y (d_transitions s)) as [t|].
    - destruct T as (l & El & Hne & Hl). split.
      + exists l. split; [exact El|]. intros q. rewrite Hl. apply G.
      + destruct l as [|q l]; [contradiction|]. exists q. apply G, Hl. now left.
    - intros q Hq. apply (T q). now apply G.
  Qed.

  Lemma state_exists w : (exists q, reach n w q) -> exists k, state_at k w.
  Proof.
    induction w as [|y w IH] using rev_ind; intros (q & Hq); [exists 0; apply state_start|].
    pose proof Hq as Hq'. apply reach_snoc in Hq' as (p & pos & Hp & _). destruct IH as (k & Hk); [eauto|].
    destruct (state_get k w Hk) as (s & Es & _). pose proof (state_step k w s y Hk Es) as H.
    destruct (map_find y (d_transitions s)) as [t|]; [exists t; tauto|]. now apply H in Hq.
  Qed.

  Lemma final_first k w s : state_at k w -> nth_error (f_states d) k = Some s ->
    match d_finalpos s with
    | Some p => reach n w p /\ exists i, final_of n i p /\ first_match ts i w
    | None => forall i, ~ matches ts i w
    end.
  Proof.
    intros Hs Es. destruct (state_get k w Hs) as (s' & Es' & Hr & _ & Hf & _). assert (s' = s) by congruence. subst s'.
    unfold final_ok in Hf. destruct (d_finalpos s) as [p|].
    - destruct Hf as (Hp & i & Fi & Hmin). apply Hr in Hp. split; [exact Hp|]. exists i. split; [exact Fi|]. split.
      + apply (matches_iff n ts K). eauto.
      + intros j Hj M. apply (matches_iff n ts K) in M as (q & Hq & Fj). apply Hr in Hq. destruct (Hmin q j Hq Fj) as [H _]. lia.
    - intros i M. apply (matches_iff n ts K) in M as (q & Hq & Fj). apply Hr in Hq. now apply (Hf q i).
  Qed.

  Lemma first_unique i j w : first_match ts i w -> first_match ts j w -> i = j.
  Proof.
    intros [A1 A2] [B1 B2]. destruct (Nat.lt_trichotomy i j) as [H|[H|H]]; [|exact H|]; [now apply B2 in H|now apply A2 in H].
  Qed.

  Lemma no_cross : allow_cross config = false -> forall i j, ~ cross_ambiguous ts i j.
  Proof.
    intros Ha i j (Hlt & w & Mi & Mj). apply (matches_iff n ts K) in Mi as (p & Hp & Fp). apply (matches_iff n ts K) in Mj as (q & Hq & Fq).
    destruct (state_exists w) as (k & Hk); [eauto|]. destruct (state_get k w Hk) as (s & Es & Hr & _ & Hf & _). unfold final_ok in Hf.
    apply Hr in Hp. apply Hr in Hq. destruct (d_finalpos s) as [z|]; [|now apply (Hf p i) in Hp].
    destruct Hf as (_ & i0 & _ & Hmin). assert (p = z) by (now apply (Hmin p i)). assert (q = z) by (now apply (Hmin q j)). subst.
    destruct Fp as (pos & E & _ & Pi). destruct Fq as (pos' & E' & _ & Pj). assert (pos = pos') by congruence. subst. lia.
  Qed.

  Lemma no_positional : allow_positional config = false -> forall i, ~ positionally_ambiguous ts i.
  Proof.
    intros Ha i H. apply (ambiguous_conflict n ts K Hnum) in H as (w & p & p' & Hc).
    pose proof Hc as (pos & pos' & q & Hp & _). destruct (state_exists w) as (k & Hk); [eauto|].
    destruct (state_get k w Hk) as (s & Es & Hr & _ & _ & (_ & _ & _ & T)). apply (T Ha p p').
    destruct Hc as (p1 & p2 & z & A & B & C). exists p1, p2, z. split; [now apply Hr|]. split; [now apply Hr|]. exact C.
  Qed.

  Lemma no_prefix i : ~ prefix_deleg ts delegs i.
  Proof.
    intros (Hd & w & y & u & j & Hf & M). apply (matches_iff n ts K) in M as (q & Hq & _).
    replace (w ++ y :: u) with ((w ++ [y]) ++ u) in Hq by (rewrite <- app_assoc; reflexivity). apply reach_app in Hq as (r & mv & Hr & _).
    pose proof (proj1 (matches_iff n ts K i w) (proj1 Hf)) as (p & Hp & Fp). destruct (state_exists w) as (k & Hk); [eauto|].
    destruct (state_get k w Hk) as (s & Es & HR & _ & _ & (_ & _ & T & _)). pose proof (final_first k w s Hk Es) as H.
    destruct (d_finalpos s) as [z|] eqn:Ez.
    - destruct H as (Hz & i0 & Fi0 & F0). rewrite (first_unique i0 i w F0 Hf) in Fi0.
      assert (nth_error delegs i = Some false); [|congruence]. apply (T y r z i); try assumption; [|reflexivity].
      apply reach_snoc in Hr. eapply step_ext; [|exact Hr]. exact HR.
    - now apply (H i); apply Hf.
  Qed.

  (* ---- the matcher ---- *)

  Variable num_args : nat.
  Let m0 : matcher := Matcher delegs num_args n (f_elems d) (f_states d) 0 [].

  Inductive hist : list hentry -> list (psym * nat) -> Prop :=
  | hist_nil : hist [] []
  | hist_snoc : forall h acc k s a, hist h acc -> state_at k (map fst acc) -> (acc = [] -> k = 0) ->
      hist (h ++ [Hentry k s a]) (acc ++ [(s, a)]).

  Record minv (m : matcher) (acc : list (psym * nat)) : Prop := {
    mi_eq : m = Matcher delegs num_args n (f_elems d) (f_states d) (m_state m) (m_history m);
    mi_state : state_at (m_state m) (map fst acc);
    mi_zero : acc = [] -> m_state m = 0;
    mi_hist : hist (m_history m) acc
  }.

  Lemma consume_ok m acc s a : minv m acc -> a < num_args ->
    exists m' b, consume m s a = Ok (m', b) /\ (b = true <-> viable ts (map fst acc ++ [s])) /\
      (if b then minv m' (acc ++ [(s, a)]) else m' = m).
  Proof.
    intros [E St Z H] Ha. unfold consume. destruct (state_get _ _ St) as (x & Ex & _).
    pose proof (state_step _ _ x s St Ex) as Hst.
    replace (m_num_args m) with num_args by (rewrite E; reflexivity). rewrite (proj2 (Nat.ltb_lt _ _) Ha).
    replace (m_states m) with (f_states d) by (rewrite E; reflexivity). rewrite Ex. cbn [get bind].
    pose proof (viable_iff n ts K Hnum (map fst acc ++ [s])) as V. destruct (map_find s (d_transitions x)) as [t|].
    - destruct Hst as [S1 S2]. eexists. exists true. split; [reflexivity|]. split; [tauto|]. constructor; cbn [m_state m_history].
      + rewrite E. reflexivity.
      + rewrite map_app. exact S1.
      + intros Hn. destruct acc; discriminate.
      + now constructor.
    - exists m, false. split; [reflexivity|]. split; [|reflexivity]. split; [discriminate|]. intros Hv. apply V in Hv as (q & Hq). now apply Hst in Hq.
  Qed.

  Lemma reached_inv m acc : reached m0 m acc -> minv m acc.
  Proof.
    induction 1 as [|m acc s a m' R IH E|m acc s a m' R IH E].
    - constructor; cbn [m_state m_history m0]; [reflexivity|apply state_start|reflexivity|constructor].
    - destruct (Nat.lt_ge_cases a num_args) as [Ha|Ha].
      + destruct (consume_ok m acc s a IH Ha) as (m2 & b & E2 & _ & H). rewrite E in E2. injection E2 as <- <-. exact H.
      + exfalso. unfold consume in E. rewrite (mi_eq _ _ IH) in E. cbn [m_num_args] in E. rewrite (proj2 (Nat.ltb_ge _ _) Ha) in E. discriminate.
    - destruct (Nat.lt_ge_cases a num_args) as [Ha|Ha].
      + destruct (consume_ok m acc s a IH Ha) as (m2 & b & E2 & _ & H). rewrite E in E2. injection E2 as <- <-. now subst m'.
      + exfalso. unfold consume in E. rewrite (mi_eq _ _ IH) in E. cbn [m_num_args] in E. rewrite (proj2 (Nat.ltb_ge _ _) Ha) in E. discriminate.
  Qed.

  Lemma can_consume_ok m acc : minv m acc -> exists b, can_consume m = Ok b /\
    (b = true <-> exists i s u, matches ts i (map fst acc ++ s :: u)).
  Proof.
    intros [E St Z H]. unfold can_consume. destruct (state_get _ _ St) as (x & Ex & _).
    replace (m_states m) with (f_states d) by (rewrite E; reflexivity). rewrite Ex. cbn [get bind]. eexists. split; [reflexivity|].
    pose proof (fun y => state_step _ _ x y St Ex) as Hst.
    assert (V : (exists i s u, matches ts i (map fst acc ++ s :: u)) <-> exists s, viable ts (map fst acc ++ [s])).
    { split.
      - intros (i & s & u & M). exists s, i, u. now rewrite <- app_assoc.
      - intros (s & i & u & M). rewrite <- app_assoc in M. exists i, s, u. exact M. }
    rewrite V. clear V. destruct (d_transitions x) as [|[y t] l] eqn:El.
    - split; [discriminate|]. intros (s & Hv). apply (viable_iff n ts K Hnum) in Hv as (q & Hq). now apply (Hst s) in Hq.
    - split; [|auto]. intros _. exists y. apply (viable_iff n ts K Hnum). specialize (Hst y).
      assert (Hm : map_find y ((y, t) :: l) = Some t) by (cbn [map_find]; now rewrite !pslt_refl_false). rewrite Hm in Hst. apply Hst.
  Qed.

  Lemma is_match_ok m acc : minv m acc -> exists o, is_match m = Ok o /\
    forall i, o = Some i <-> first_match ts i (map fst acc).
  Proof.
    intros [E St Z H]. unfold is_match. destruct (state_get _ _ St) as (x & Ex & _).
    replace (m_states m) with (f_states d) by (rewrite E; reflexivity). rewrite Ex. cbn [get bind].
    pose proof (final_first _ _ x St Ex) as Hf. destruct (d_finalpos x) as [p|].
    - destruct Hf as (Hp & i0 & (pos & Ep & Fp & Pi) & F0). replace (m_nfa m) with n by (rewrite E; reflexivity).
      unfold get_position. rewrite Ep. cbn [get bind]. replace (m_delegs m) with delegs by (rewrite E; reflexivity).
      destruct (nth_error delegs (p_pattern pos)) as [b|] eqn:Eb.
      2:{ apply nth_error_None in Eb. pose proof (pattern_range n ts K Hnum p pos Ep). lia. }
      cbn [get bind]. exists (Some (p_pattern pos)). split; [reflexivity|]. intros i. rewrite Pi. split; [intros [= <-]; exact F0|].
      intros Fi. f_equal. eapply first_unique; eassumption.
    - exists None. split; [reflexivity|]. intros i. split; [discriminate|]. intros [M _]. now apply Hf in M.
  Qed.

  Lemma any_deleg_ok m l : m_nfa m = n -> m_delegs m = delegs -> valid n l ->
    exists b, any_deleg m l = Ok b /\ (b = true <-> exists p pos, In p l /\ at_pos p pos /\ nth_error delegs (p_pattern pos) = Some true).
  Proof.
    intros En Ed. induction l as [|x l IH]; intros Hv; cbn [any_deleg].
    - exists false. split; [reflexivity|]. split; [discriminate|]. intros (p & pos & [] & _).
    - destruct (Hv x (or_introl eq_refl)) as (pos & Ep). rewrite En, Ed. unfold get_position. rewrite Ep. cbn [get bind].
      destruct (nth_error delegs (p_pattern pos)) as [b|] eqn:Eb.
      2:{ apply nth_error_None in Eb. pose proof (pattern_range n ts K Hnum x pos Ep). lia. }
      cbn [get bind]. destruct b.
      + exists true. split; [reflexivity|]. split; [|reflexivity]. intros _. exists x, pos. split; [now left|auto].
      + destruct IH as (b & Eb' & Hb); [intros z Hz; apply Hv; now right|]. exists b. split; [exact Eb'|]. rewrite Hb.
        split; intros (p & pos' & Hp & H); exists p, pos'; (split; [|exact H]); [now right|].
        destruct Hp as [<-|Hp]; [|exact Hp]. exfalso. destruct H as [H1 H2]. assert (pos' = pos) by congruence. subst. congruence.
  Qed.

  Lemma can_delegate_ok m acc : minv m acc -> exists b, can_delegate m = Ok b /\
    (b = true <-> exists i u, nth_error delegs i = Some true /\ matches ts i (map fst acc ++ u)).
  Proof.
    intros [E St Z H]. unfold can_delegate. destruct (state_get _ _ St) as (x & Ex & Hr & _).
    replace (m_states m) with (f_states d) by (rewrite E; reflexivity). rewrite Ex. cbn [get bind].
    replace (m_elems m) with (f_elems d) by (rewrite E; reflexivity).
    destruct (any_deleg_ok m (frozen (f_elems d) (d_positions x))) as (b & Eb & Hb).
    - rewrite E. reflexivity.
    - rewrite E. reflexivity.
    - intros p Hp. apply Hr in Hp. apply (reach_pos n ts K Hnum _ _ Hp).
    - exists b. split; [exact Eb|]. rewrite Hb. split.
      + intros (p & pos & Hp & Ep & Hdl). apply Hr in Hp. destruct (viable_from n ts K Hnum _ _ Hp pos Ep) as (u & M). eauto.
      + intros (i & u & Hdl & M). apply (matches_iff n ts K) in M as (q & Hq & pos & Eq & _ & Pi).
        apply reach_app in Hq as (r & mv & Hrr & Hp & _). destruct (reach_pos n ts K Hnum _ _ Hrr) as (posr & Er).
        exists r, posr. split; [now apply Hr|]. split; [exact Er|]. rewrite <- (path_pattern n ts K Hnum _ _ _ _ _ Hp Er Eq), Pi. exact Hdl.
  Qed.

  (* ---- backtracking ---- *)

  Lemma find_prior_ok m l y q : m_nfa m = n -> valid n l -> incr l -> step n (fun x => In x l) y q ->
    exists p pos, find_prior m l y q = Ok p /\ In p l /\ at_pos p pos /\ p_sym pos = y /\ In q (p_follow pos) /\
      forall p' pos', In p' l -> at_pos p' pos' -> p_sym pos' = y -> In q (p_follow pos') -> p <= p'.
  Proof.
    intros En. induction l as [|x l IH]; intros Hv Hi (p & pos & Hp & Ep & Ey & Hq); [destruct Hp|]. cbn [find_prior].
    destruct (Hv x (or_introl eq_refl)) as (posx & Ex). rewrite En. unfold get_position. rewrite Ex. cbn [get bind].
    subst y. apply StronglySorted_inv in Hi as [Hi' F]. rewrite Forall_forall in F.
    assert (Rec : ~ (p_sym posx = p_sym pos /\ In q (p_follow posx)) -> exists p0 pos0, find_prior m l (p_sym pos) q = Ok p0 /\ In p0 (x :: l) /\ at_pos p0 pos0 /\ p_sym pos0 = p_sym pos /\ In q (p_follow pos0) /\
        forall p' pos', In p' (x :: l) -> at_pos p' pos' -> p_sym pos' = p_sym pos -> In q (p_follow pos') -> p0 <= p').
    { intros Hx. destruct IH as (p0 & pos0 & A & B & C & D1 & E & G).
      - intros z Hz. apply Hv. now right.
      - exact Hi'.
      - exists p, pos. destruct Hp as [<-|Hp]; [|auto]. exfalso. apply Hx. assert (posx = pos) by congruence. now subst.
      - exists p0, pos0. split; [exact A|]. split; [now right|]. split; [exact C|]. split; [exact D1|]. split; [exact E|].
        intros p' pos' [<-|Hp'] Ep' Es' Hq'; [|now apply (G p' pos')]. exfalso. apply Hx. assert (pos' = posx) by congruence. now subst. }
    destruct (psym_eqb (p_sym posx) (p_sym pos)) eqn:E1; cbn [negb].
    - destruct (mem q (p_follow posx)) eqn:E2; cbn [negb].
      + apply psym_eqb_eq in E1. apply mem_in in E2. exists x, posx. split; [reflexivity|]. split; [now left|]. repeat split; try assumption.
        intros p' pos' [<-|Hp'] _ _ _; [lia|]. apply F in Hp'. lia.
      + apply Rec. intros [_ H]. apply mem_in in H. congruence.
    - apply Rec. intros [H _]. apply psym_eqb_eq in H. congruence.
  Qed.

  Lemma right_before_snoc w1 w2 x : right_before w1 w2 -> right_before (w1 ++ [x]) (w2 ++ [x]).
  Proof.
    intros (u1 & u2 & a & b & s & v & -> & -> & H & Hlt). exists u1, u2, a, b, s, (v ++ [x]). rewrite <- !app_assoc. auto.
  Qed.

  Lemma backtrack_loop_ok m : m_nfa m = n -> m_states m = f_states d -> m_elems m = f_elems d ->
    forall h acc, hist h acc -> forall k q pos arg tl, (acc = [] -> k = 0) -> reach n (map fst acc) q -> at_pos q pos ->
    exists p mw, backtrack_loop m (rev h) k q arg tl = Ok (combine (map fst mw) (map snd acc) ++ (p_ipos pos, arg) :: tl) /\
      In p (n_start n) /\ nfa_path n p mw q /\ map snd mw = map fst acc /\
      forall p' mw', In p' (n_start n) -> nfa_path n p' mw' q -> map snd mw' = map fst acc -> mw' = mw \/ right_before mw mw'.
  Proof.
    intros En Est Eel. induction 1 as [|h acc k0 s a Hh IH Hst Hz]; intros k q pos arg tl Hk Hq Eq.
    - cbn [rev backtrack_loop map]. rewrite En. unfold get_position. rewrite Eq. cbn [get bind]. rewrite (Hk eq_refl). cbn [Nat.eqb].
      exists q, []. apply reach_nil in Hq. repeat split; [exact Hq|constructor|]. intros p' mw' _ _ Hm. left. destruct mw'; [reflexivity|discriminate].
    - rewrite rev_app_distr. cbn [rev app backtrack_loop]. rewrite En. unfold get_position. rewrite Eq. cbn [get bind].
      cbn [h_prior h_symbol h_arg]. destruct (state_get _ _ Hst) as (x & Ex & Hr & Hinc & _). rewrite Est, Eel, Ex. cbn [get bind].
      rewrite map_app in Hq. cbn [map fst] in Hq. apply reach_snoc in Hq.
      assert (Hsx : step n (fun z => In z (frozen (f_elems d) (d_positions x))) s q) by (eapply step_ext; [|exact Hq]; exact Hr).
      assert (Hvx : valid n (frozen (f_elems d) (d_positions x))) by (intros z Hz'; apply Hr in Hz'; apply (reach_pos n ts K Hnum _ _ Hz')).
      destruct (find_prior_ok m _ s q En Hvx Hinc Hsx) as (p & posp & -> & Hp & Ep & Es & Hf & Hleast). cbn [bind].
      apply Hr in Hp. destruct (IH k0 p posp a ((p_ipos pos, arg) :: tl) Hz Hp Ep) as (p0 & mw & -> & S0 & P0 & M0 & L0).
      exists p0, (mw ++ [(p_ipos posp, p_sym posp)]). split; [|split; [exact S0|split; [|split]]].
      + rewrite !map_app. cbn [map fst snd]. rewrite combine_snoc.
        * now rewrite <- app_assoc.
        * rewrite !map_length. apply (f_equal (@length _)) in M0. now rewrite !map_length in M0.
      + apply path_app with p; [exact P0|]. apply path_one. eauto.
      + rewrite !map_app. cbn [map fst snd]. congruence.
      + intros p' mw' S' P' M'. rewrite map_app in M'. cbn [map fst] in M'. destruct (exists_last (l := mw')) as (mw2 & y & ->).
        { intros ->. destruct (map fst acc); discriminate. }
        rewrite map_app in M'. cbn [map] in M'. apply app_inj_tail in M' as [M2 My]. apply path_split in P' as (r & P1 & P2).
        apply path_one in P2 as (posr & Er & Fr & ->). cbn [snd] in My.
        destruct (Nat.eq_dec r p) as [->|Hne].
        * assert (posr = posp) by congruence. subst posr. destruct (L0 p' mw2 S' P1 M2) as [->|Hb]; [now left|right]. now apply right_before_snoc.
        * right. exists mw, mw2, (p_ipos posp), (p_ipos posr), s, []. rewrite Es, My. repeat split.
          -- apply (f_equal (@length _)) in M0. apply (f_equal (@length _)) in M2. rewrite map_length in M0, M2. congruence.
          -- assert (Hle : p <= r). { apply (Hleast r posr); try assumption. apply Hr. exists p', mw2. auto. }
             destruct (follow_place n ts K Hnum _ _ _ Ep Hf) as (pa & Ea & Pa). destruct (follow_place n ts K Hnum _ _ _ Er Fr) as (pb & Eb & Pb).
             assert (p_pattern posp = p_pattern posr) by congruence.
             destruct (position_place n ts K Hnum _ _ Ep) as (t1 & _ & _ & O1). destruct (position_place n ts K Hnum _ _ Er) as (t2 & _ & _ & O2).
             rewrite H in O1. lia.
  Qed.

  Lemma backtrack_ok m acc i t : minv m acc -> first_match ts i (map fst acc) -> nth_error ts i = Some t ->
    exists mw, backtrack m = Ok (combine (map fst mw) (map snd acc) ++ [(length (seq_syms t), num_args)]) /\
      m_seq t mw /\ map snd mw = map fst acc /\
      forall mw', m_seq t mw' -> map snd mw' = map fst acc -> mw' = mw \/ right_before mw mw'.
  Proof.
    intros [E St Z H] Hfm Et. unfold backtrack. destruct (state_get _ _ St) as (x & Ex & Hr & _).
    assert (A1 : m_states m = f_states d) by (rewrite E; reflexivity). assert (A2 : m_nfa m = n) by (rewrite E; reflexivity).
    assert (A3 : m_elems m = f_elems d) by (rewrite E; reflexivity). assert (A4 : m_num_args m = num_args) by (rewrite E; reflexivity).
    rewrite A1, Ex. cbn [get bind]. pose proof (final_first _ _ x St Ex) as Hf. destruct (d_finalpos x) as [p|].
    2:{ destruct Hfm as [M _]. now apply Hf in M. }
    destruct Hf as (Hp & i0 & Fi & F0). rewrite (first_unique _ _ _ F0 Hfm) in Fi. clear i0 F0. cbn [get bind]. pose proof Fi as (pos & Ep & Fp & Pi).
    destruct (backtrack_loop_ok m A2 A1 A3 _ _ H (m_state m) p pos (m_num_args m) [] Z Hp Ep) as (p0 & mw & -> & S0 & P0 & M0 & L0).
    exists mw. rewrite A4. assert (Hsz : p_ipos pos = size t) by (apply (final_iff n ts K Hnum p pos t Ep); [now rewrite Pi|exact Fp]).
    rewrite Hsz. split; [reflexivity|]. split; [|split; [exact M0|]].
    - assert (A : nfa_accepts n i mw) by (exists p0, p, pos; auto). apply (accepts_iff n ts K) in A as (t' & Et' & M). congruence.
    - intros mw' M' E'. assert (A : nfa_accepts n i mw') by (apply (accepts_iff n ts K); eauto).
      destruct A as (p' & z & posz & S' & P' & Ez & Fz & Piz). assert (z = p) by (apply (final_unique n ts K Hnum i); [exists posz; auto|exact Fi]). subst z.
      now apply (L0 p' mw').
  Qed.

  (* without a match, backtracking fails an assertion *)
  Lemma backtrack_no_match m acc : minv m acc -> (forall i, ~ matches ts i (map fst acc)) -> backtrack m = Bad.
  Proof.
    intros [E St Z H] Hn. unfold backtrack. destruct (state_get _ _ St) as (x & Ex & Hr & _).
    replace (m_states m) with (f_states d) by (rewrite E; reflexivity). rewrite Ex. cbn [get bind].
    pose proof (final_first _ _ x St Ex) as Hf. destruct (d_finalpos x) as [p|]; [|reflexivity].
    destruct Hf as (_ & i & _ & M & _). now apply Hn in M.
  Qed.
End Matcher.
