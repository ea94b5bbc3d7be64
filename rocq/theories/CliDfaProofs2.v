(* Construction of the DFA, continued: the invariant of the construction. *)
From Coq Require Import List Arith Bool Lia Sorted.
From Verif Require Import CliPatternModel CliPatternSpec CliBuilderProofs CliNfaProofs CliMatcherModel CliMatcherSpec CliReachProofs CliDfaProofs ArrLib.
Import ListNotations.

Lemma combine_snoc {A B} (a : list A) : forall (b : list B) x y, length a = length b ->
  combine (a ++ [x]) (b ++ [y]) = combine a b ++ [(x, y)].
Proof. induction a as [|c a IH]; intros [|e b] x y H; cbn in *; try discriminate; [reflexivity|]. f_equal. apply IH. lia. Qed.

Section Dfa.
  Variables (n : nfa) (ts : list tseq) (config : mconfig) (delegs : list bool).
  Hypothesis K : nfa_ok n ts.
  Hypothesis Hnum : Forall numbered ts.
  Hypothesis Hdel : length delegs = length ts.
  Notation at_pos p pos := (nth_error (n_positions n) p = Some pos).
  Notation elem_of l := (fun x => In x l).

  Definition valid (l : list nat) : Prop := forall p, In p l -> exists pos, at_pos p pos.

  (* what an error tells *)
  Definition true_error (e : spec_error) : Prop :=
    match e with
    | cross_pattern_ambiguity a b => allow_cross config = false /\ exists i j, a = 1 + i /\ b = 1 + j /\ cross_ambiguous ts i j
    | positional_ambiguity a b c => allow_positional config = false /\
        exists w p p' pos pos', conflict n (reach n w) p p' /\ at_pos p pos /\ at_pos p' pos' /\ p_pattern pos = p_pattern pos' /\
          a = 1 + p_pattern pos /\ b = 1 + p /\ c = 1 + p'
    | prefix_deleg_pattern a => exists i, a = 1 + i /\ prefix_deleg ts delegs i
    end.

  (* ---- the final position ---- *)

  Definition final_ok (set : list nat) (o : option nat) : Prop :=
    match o with
    | None => forall p i, In p set -> ~ final_of n i p
    | Some p => In p set /\ exists i, final_of n i p /\
        forall q j, In q set -> final_of n j q -> i <= j /\ (allow_cross config = false -> q = p)
    end.

  Lemma find_finalpos_ok l : forall pre acc, incr (pre ++ l) -> valid (pre ++ l) -> final_ok pre acc ->
    match find_finalpos n config l acc with
    | Ok o => final_ok (pre ++ l) o
    | Err e => allow_cross config = false /\ exists i j p q, e = cross_pattern_ambiguity (1 + i) (1 + j) /\ i < j /\
        In p (pre ++ l) /\ In q (pre ++ l) /\ final_of n i p /\ final_of n j q
    | Bad => False
    end.
  Proof.
    induction l as [|x l IH]; intros pre acc Hi Hv Ha; cbn [find_finalpos].
    - now rewrite app_nil_r.
    - replace (pre ++ x :: l) with ((pre ++ [x]) ++ l) in * by (rewrite <- app_assoc; reflexivity).
      assert (Hx : In x ((pre ++ [x]) ++ l)) by (apply in_or_app; left; apply in_or_app; right; now left).
      destruct (Hv x Hx) as (pos & E). unfold get_position at 1. rewrite E. cbn [get bind].
      assert (Hlt : forall p, In p pre -> p < x).
      { clear - Hi. rewrite <- app_assoc in Hi. cbn [app] in Hi. unfold incr in Hi. induction pre as [|y pre IHp]; [intros p []|].
        cbn [app] in Hi. inversion Hi as [|? ? Hi' F]; subst. intros p [<-|Hp]; [|now apply IHp].
        rewrite Forall_forall in F. apply F. apply in_or_app. right. now left. }
      destruct (p_follow pos) as [|f fs] eqn:Ef.
      + assert (Fx : final_of n (p_pattern pos) x) by (exists pos; auto).
        destruct acc as [p|].
        * destruct Ha as (Hp & i & (pos0 & E0 & F0 & P0) & Hmin). unfold get_position at 1. rewrite E0. cbn [get bind].
          pose proof (final_order n ts K Hnum p x pos0 pos E0 E (Hlt p Hp) F0 Ef) as Ho.
          rewrite (proj2 (Nat.ltb_lt _ _) Ho). destruct (allow_cross config) eqn:Ec.
          -- apply IH; try assumption. split; [apply in_or_app; now left|]. exists i. split; [exists pos0; auto|].
             intros q j Hq Fq. rewrite Ec. apply in_app_iff in Hq as [Hq|[<-|[]]]; [now apply Hmin|].
             split; [|congruence]. destruct Fq as (pos' & E' & _ & P'). assert (pos' = pos) by congruence. subst. lia.
          -- split; [reflexivity|]. exists (p_pattern pos0), (p_pattern pos), p, x. repeat split; try assumption.
             ++ apply in_or_app. left. apply in_or_app. now left.
             ++ exists pos0. auto.
        * apply IH; try assumption. split; [apply in_or_app; right; now left|]. exists (p_pattern pos). split; [exact Fx|].
          intros q j Hq Fq. apply in_app_iff in Hq as [Hq|[<-|[]]]; [now apply Ha in Fq|].
          split; [|auto]. destruct Fq as (pos' & E' & _ & P'). assert (pos' = pos) by congruence. subst. lia.
      + assert (Nx : forall i, ~ final_of n i x).
        { intros i (pos' & E' & F' & _). assert (pos' = pos) by congruence. subst. congruence. }
        apply IH; try assumption. destruct acc as [p|]; cbn [final_ok] in *.
        * destruct Ha as (Hp & i & Fp & Hmin). split; [apply in_or_app; now left|]. exists i. split; [exact Fp|].
          intros q j Hq Fq. apply in_app_iff in Hq as [Hq|[<-|[]]]; [now apply Hmin|]. now apply Nx in Fq.
        * intros p i Hq Fq. apply in_app_iff in Hq as [Hq|[<-|[]]]; [now apply Ha in Fq|]. now apply Nx in Fq.
  Qed.

  (* ---- the sets of the states ---- *)

  Definition statics (d : dfa) : list ((nat * nat) * option nat) := map (fun s => (d_positions s, d_finalpos s)) (f_states d).
  Definition sets (d : dfa) : list (list nat) := map (fun x => frozen (f_elems d) (fst x)) (statics d).

  Definition is_reach (l : list nat) : Prop := exists w, forall q, In q l <-> reach n w q.

  Record static_ok (elems : list nat) (x : (nat * nat) * option nat) : Prop := {
    so_range : snd (fst x) <= length elems;
    so_incr : incr (frozen elems (fst x));
    so_reach : is_reach (frozen elems (fst x));
    so_final : final_ok (frozen elems (fst x)) (snd x)
  }.

  Record dinv (d : dfa) : Prop := {
    dv_static : forall x, In x (statics d) -> static_ok (f_elems d) x;
    dv_map : f_map d = combine (map fst (statics d)) (List.seq 0 (length (statics d)));
    dv_distinct : NoDup (sets d)
  }.

  Lemma reach_valid l : is_reach l -> valid l.
  Proof. intros (w & H) p Hp. apply H in Hp. eapply reach_pos; eassumption. Qed.

  (* what happens to the states during the finalization of a state *)
  Record evolve (k : nat) (d d' : dfa) : Prop := {
    ev_elems : exists me, f_elems d' = f_elems d ++ me;
    ev_static : exists ms, statics d' = statics d ++ ms;
    ev_states : forall j s', j <> k -> nth_error (f_states d') j = Some s' ->
      nth_error (f_states d) j = Some s' \/ (length (f_states d) <= j /\ d_transitions s' = [])
  }.

  Lemma statics_length d : length (statics d) = length (f_states d).
  Proof. apply map_length. Qed.

  Lemma evolve_refl k d : evolve k d d.
  Proof. constructor; [exists []; now rewrite app_nil_r|exists []; now rewrite app_nil_r|auto]. Qed.

  Lemma evolve_length k d d' : evolve k d d' -> length (f_states d) <= length (f_states d').
  Proof. intros [_ (ms & H) _]. rewrite <- !statics_length, H, app_length. lia. Qed.

  Lemma evolve_trans k d1 d2 d3 : evolve k d1 d2 -> evolve k d2 d3 -> evolve k d1 d3.
  Proof.
    intros E1 E2. pose proof (evolve_length _ _ _ E1) as Hl. destruct E1 as [(m1 & A1) (s1 & B1) C1], E2 as [(m2 & A2) (s2 & B2) C2]. constructor.
    - exists (m1 ++ m2). now rewrite A2, A1, app_assoc.
    - exists (s1 ++ s2). now rewrite B2, B1, app_assoc.
    - intros j s' Hj H. destruct (C2 j s' Hj H) as [H2|[H2 H3]]; [now apply C1|]. right. split; [lia|exact H3].
  Qed.

  Lemma evolve_sets k d d' : dinv d -> evolve k d d' -> exists m, sets d' = sets d ++ m.
  Proof.
    intros D [(me & A) (ms & B) _]. unfold sets. rewrite A, B, map_app. eexists. f_equal.
    apply map_ext_in. intros x Hx. apply frozen_old. now apply (dv_static d D).
  Qed.

  Lemma evolve_set k d d' j l : dinv d -> evolve k d d' -> nth_error (sets d) j = Some l -> nth_error (sets d') j = Some l.
  Proof.
    intros D E H. destruct (evolve_sets k d d' D E) as (m & ->). rewrite nth_error_app1; [exact H|]. apply nth_error_Some. congruence.
  Qed.

  Lemma sets_nth d j s : nth_error (f_states d) j = Some s -> nth_error (sets d) j = Some (frozen (f_elems d) (d_positions s)).
  Proof. intros H. unfold sets, statics. rewrite map_map. erewrite map_nth_error by eassumption. reflexivity. Qed.

  Lemma statics_in d j s : nth_error (f_states d) j = Some s -> In (d_positions s, d_finalpos s) (statics d).
  Proof. intros H. unfold statics. apply nth_error_In in H. apply in_map_iff. exists s. auto. Qed.

  Lemma find_state_ok elems r l : forall a,
    match find_state elems r (combine (map fst l) (List.seq a (length l))) with
    | Some i => exists k x, i = a + k /\ nth_error l k = Some x /\ frozen elems r = frozen elems (@fst _ (option nat) x)
    | None => forall x, In x l -> frozen elems r <> frozen elems (fst x)
    end.
  Proof.
    induction l as [|x l IH]; intros a; cbn [map length List.seq combine find_state]; [intros x []|].
    destruct (list_eqb (frozen elems r) (frozen elems (fst x))) eqn:E.
    - apply list_eqb_eq in E. exists 0, x. repeat split; [lia|exact E].
    - specialize (IH (S a)). destruct (find_state elems r (combine (map fst l) (List.seq (S a) (length l)))) as [i|].
      + destruct IH as (k & y & -> & A & B). exists (S k), y. repeat split; [lia|exact A|exact B].
      + intros y [<-|Hy]; [|now apply IH]. intros H. apply list_eqb_eq in H. congruence.
  Qed.

  Lemma ensure_state_ok k d set : dinv d -> incr set -> is_reach set ->
    match ensure_state n config d set with
    | Ok (d', t) => dinv d' /\ evolve k d d' /\ nth_error (sets d') t = Some set /\
        forall j, j < length (f_states d) -> nth_error (f_states d') j = nth_error (f_states d) j
    | Err e => true_error e
    | Bad => False
    end.
  Proof.
    intros D Hi Hr. unfold ensure_state. rewrite (dv_map d D).
    assert (Old : forall x, In x (statics d) -> frozen (f_elems d ++ set) (fst x) = frozen (f_elems d) (fst x)).
    { intros x Hx. apply frozen_old. now apply (dv_static d D). }
    pose proof (find_state_ok (f_elems d ++ set) (length (f_elems d), length (f_elems d ++ set)) (statics d) 0) as Hf.
    destruct (find_state _ _ _) as [i|] eqn:Efs.
    - destruct Hf as (j & x & -> & Hx & E). rewrite firstn_app, firstn_all, Nat.sub_diag. cbn [firstn]. rewrite app_nil_r.
      replace (Dfa (f_elems d) (f_states d) (combine (map fst (statics d)) (List.seq 0 (length (statics d))))) with d
        by (destruct d as [e s m]; unfold statics in *; cbn [f_elems f_states f_map] in *; f_equal; apply (dv_map _ D)).
      split; [exact D|]. split; [apply evolve_refl|]. split; [|auto].
      cbn [Nat.add]. unfold sets. erewrite map_nth_error by exact Hx. f_equal. rewrite frozen_new, Old in E; [now symmetry|].
      eapply nth_error_In; exact Hx.
    - rewrite frozen_new in *. pose proof (find_finalpos_ok set [] None Hi (reach_valid set Hr)) as Hp. cbn [app] in Hp.
      specialize (Hp ltac:(intros p i [])). destruct (find_finalpos n config set None) as [o|e|] eqn:Eff; cbn [bind]; [| |exact Hp].
      + set (d' := Dfa _ _ _).
        assert (Hst : statics d' = statics d ++ [((length (f_elems d), length (f_elems d ++ set)), o)]).
        { unfold statics, d'. cbn [f_states]. now rewrite map_app. }
        assert (Hse : sets d' = sets d ++ [set]).
        { unfold sets. rewrite Hst, map_app. unfold d'. cbn [f_elems map fst]. rewrite frozen_new. f_equal. now apply map_ext_in. }
        split; [constructor|split; [constructor|split]].
        * intros x Hx. rewrite Hst in Hx. apply in_app_iff in Hx as [Hx|[<-|[]]]; unfold d'; cbn [f_elems].
          -- destruct (dv_static d D x Hx) as [R1 R2 R3 R4]. constructor; rewrite ?Old by exact Hx; try assumption. rewrite app_length. lia.
          -- constructor; cbn [fst snd]; rewrite ?frozen_new; try assumption. reflexivity.
        * rewrite Hst, map_app, (app_length (statics d)). cbn [length map fst]. rewrite seq_app. unfold d'. cbn [f_map].
          cbn [List.seq Nat.add]. rewrite combine_snoc by now rewrite map_length, seq_length. now rewrite statics_length.
        * rewrite Hse.
          assert (Hn : ~ In set (sets d)).
          { intros H. unfold sets in H. apply in_map_iff in H as (x & E & Hx). apply (Hf x Hx). now rewrite Old. }
          clear - Hn D. pose proof (dv_distinct d D) as H. clear D. induction (sets d) as [|y l IH]; cbn [app]; [repeat constructor; intros []|].
          inversion H; subst. constructor.
          -- intros Hi. apply in_app_iff in Hi as [Hi|[<-|[]]]; [contradiction|]. apply Hn. now left.
          -- apply IH; [|assumption]. intros Hi. apply Hn. now right.
        * exists set. reflexivity.
        * eexists. exact Hst.
        * intros j s' _ H. unfold d' in H. cbn [f_states] in H. destruct (Nat.lt_ge_cases j (length (f_states d))) as [Hj|Hj].
          -- rewrite nth_error_app1 in H by exact Hj. now left.
          -- right. split; [exact Hj|]. rewrite nth_error_app2 in H by exact Hj. destruct (j - length (f_states d)) as [|z]; cbn [nth_error] in H; [now injection H as <-|destruct z; discriminate].
        * rewrite Hse. rewrite nth_error_app2 by (unfold sets; rewrite map_length, statics_length; lia).
          unfold sets. rewrite map_length, statics_length, Nat.sub_diag. reflexivity.
        * intros j Hj. unfold d'. cbn [f_states]. now rewrite nth_error_app1.
      + destruct Hp as (Hc & i & j & p & q & -> & Hlt & Hp & Hq & Fp & Fq). cbn [true_error]. split; [exact Hc|]. exists i, j. repeat split; [exact Hlt|].
        destruct Hr as (w & Hr). exists w. split; apply (matches_iff n ts K); [exists p|exists q]; (split; [now apply Hr|assumption]).
  Qed.

  (* ---- the targets ---- *)

  Definition targets_ok (pre : list nat) (targets : list (psym * list nat)) : Prop :=
    sorted targets /\
    (forall y, match map_find y targets with
     | Some l => incr l /\ l <> [] /\ forall q, In q l <-> step n (elem_of pre) y q
     | None => forall q, ~ step n (elem_of pre) y q
     end) /\
    (allow_positional config = false -> forall p p', ~ conflict n (elem_of pre) p p').

  Lemma find_origin_ok y q l : valid l -> step n (elem_of l) y q ->
    exists p pos, find_origin n l y q = Ok p /\ In p l /\ at_pos p pos /\ p_sym pos = y /\ In q (p_follow pos).
  Proof.
    induction l as [|x l IH]; intros Hv (p & pos & Hp & Ep & Ey & Hq); [destruct Hp|]. cbn [find_origin].
    destruct (Hv x (or_introl eq_refl)) as (posx & Ex). unfold get_position. rewrite Ex. cbn [get bind].
    destruct (psym_eqb (p_sym posx) y && mem q (p_follow posx)) eqn:E.
    - apply andb_true_iff in E as [E1 E2]. apply psym_eqb_eq in E1. apply mem_in in E2. exists x, posx. repeat split; try assumption. now left.
    - destruct Hp as [<-|Hp].
      + exfalso. assert (posx = pos) by congruence. subst posx. rewrite (proj2 (psym_eqb_eq _ _) Ey), (proj2 (mem_in _ _) Hq) in E. discriminate.
      + destruct IH as (p' & pos' & A & B & C).
        * intros z Hz. apply Hv. now right.
        * exists p, pos. auto.
        * exists p', pos'. split; [exact A|]. split; [now right|exact C].
  Qed.

  Lemma add_followers_ok pre x pos : valid pre -> forall fs done set, NoDup (done ++ fs) -> incr set ->
    (forall q, In q set <-> step n (elem_of pre) (p_sym pos) q \/ In q done) ->
    (allow_positional config = false -> forall q, In q done -> ~ step n (elem_of pre) (p_sym pos) q) ->
    match add_followers n config pre x pos fs set with
    | Ok set' => incr set' /\ (forall q, In q set' <-> step n (elem_of pre) (p_sym pos) q \/ In q (done ++ fs)) /\
        (allow_positional config = false -> forall q, In q (done ++ fs) -> ~ step n (elem_of pre) (p_sym pos) q)
    | Err e => allow_positional config = false /\ exists p pos' q, e = positional_ambiguity (1 + p_pattern pos) (1 + p) (1 + x) /\
        In p pre /\ at_pos p pos' /\ p_sym pos' = p_sym pos /\ In q (p_follow pos') /\ In q fs
    | Bad => False
    end.
  Proof.
    intros Hv. induction fs as [|q fs IH]; intros done set Hd Hi Hs Hn; cbn [add_followers].
    - rewrite app_nil_r. auto.
    - destruct (set_insert q set) as [set2 ins] eqn:Eins.
      pose proof (fun z => set_insert_in q set z) as Hin. pose proof (set_insert_incr q set Hi) as Hi2. pose proof (set_insert_flag q set Hi) as Hfl.
      rewrite Eins in Hin, Hi2, Hfl. cbn [fst snd] in Hin, Hi2, Hfl.
      replace (done ++ q :: fs) with ((done ++ [q]) ++ fs) in * by (rewrite <- app_assoc; reflexivity).
      assert (Hq : ~ In q done).
      { rewrite <- app_assoc in Hd. cbn [app] in Hd. apply NoDup_remove_2 in Hd. intros H. apply Hd. apply in_or_app. now left. }
      assert (G : forall z, In z set2 <-> step n (elem_of pre) (p_sym pos) z \/ In z (done ++ [q])).
      { intros z. rewrite Hin, Hs, in_app_iff. cbn [In]. intuition. }
      destruct (ins || allow_positional config) eqn:Eo.
      + specialize (IH (done ++ [q]) set2 Hd Hi2 G). assert (Hn2 : allow_positional config = false -> forall z, In z (done ++ [q]) -> ~ step n (elem_of pre) (p_sym pos) z).
        { intros Ha z Hz. rewrite Ha, orb_false_r in Eo. apply Hfl in Eo. apply in_app_iff in Hz as [Hz|[<-|[]]]; [now apply Hn|].
          intros Hst. apply Eo. apply Hs. now left. }
        specialize (IH Hn2). destruct (add_followers n config pre x pos fs set2) as [set'|e|]; [exact IH| |exact IH].
        destruct IH as (Ha & p & pos' & z & A & B & C & D & E & F). split; [exact Ha|]. exists p, pos', z. repeat split; try assumption. now right.
      + apply orb_false_iff in Eo as [-> Ha]. assert (Hqs : In q set).
        { destruct (in_dec Nat.eq_dec q set) as [H|H]; [exact H|]. apply Hfl in H. discriminate. }
        apply Hs in Hqs as [Hst|Hqd]; [|contradiction].
        destruct (find_origin_ok (p_sym pos) q pre Hv Hst) as (p & pos' & -> & Hp & Ep & Es & Hf). cbn [bind].
        split; [exact Ha|]. exists p, pos', q. repeat split; try assumption. now left.
  Qed.

  Lemma step_app pre x y q : step n (elem_of (pre ++ [x])) y q <->
    step n (elem_of pre) y q \/ exists pos, at_pos x pos /\ p_sym pos = y /\ In q (p_follow pos).
  Proof.
    unfold step. split.
    - intros (p & pos & Hp & A & B & C). apply in_app_iff in Hp as [Hp|[<-|[]]]; [left; exists p, pos; auto|right; exists pos; auto].
    - intros [(p & pos & Hp & A)|(pos & A)].
      + exists p, pos. split; [apply in_or_app; now left|exact A].
      + exists x, pos. split; [apply in_or_app; right; now left|exact A].
  Qed.

  Lemma incr_nodup l : incr l -> NoDup l.
  Proof.
    unfold incr. induction l as [|x l IH]; intros H; constructor; inversion H as [|? ? H' F]; subst; [|now apply IH].
    intros Hx. rewrite Forall_forall in F. apply F in Hx. lia.
  Qed.

  Lemma make_targets_ok l : forall pre targets, incr (pre ++ l) -> is_reach (pre ++ l) -> targets_ok pre targets ->
    match make_targets n config pre l targets with
    | Ok targets' => targets_ok (pre ++ l) targets'
    | Err e => true_error e
    | Bad => False
    end.
  Proof.
    induction l as [|x l IH]; intros pre targets Hi Hr (T1 & T2 & T3); cbn [make_targets].
    - rewrite app_nil_r. split; [exact T1|]. split; [exact T2|exact T3].
    - assert (Hv : valid (pre ++ x :: l)) by now apply reach_valid.
      assert (Hxp : ~ In x pre). { apply incr_nodup, NoDup_remove_2 in Hi. intros H. apply Hi. apply in_or_app. now left. }
      assert (Hvp : valid pre) by (intros p Hp; apply Hv; apply in_or_app; now left).
      destruct (Hv x) as (pos & E); [apply in_or_app; right; now left|]. unfold get_position. rewrite E. cbn [get bind].
      replace (pre ++ x :: l) with ((pre ++ [x]) ++ l) in * by (rewrite <- app_assoc; reflexivity).
      destruct (p_follow pos) as [|f fs] eqn:Ef.
      + cbn [bind]. apply IH; try assumption.
        assert (Hst : forall y q, step n (elem_of (pre ++ [x])) y q <-> step n (elem_of pre) y q).
        { intros y q. rewrite step_app. split; [|auto]. intros [H|(pos' & E' & _ & H)]; [exact H|].
          assert (pos' = pos) by congruence. subst. rewrite Ef in H. destruct H. }
        split; [exact T1|]. split.
        * intros y. specialize (T2 y). destruct (map_find y targets); [|intros q; rewrite Hst; apply T2].
          destruct T2 as (A & B & C). repeat split; try assumption; intros; [apply Hst; now apply C|apply C; now apply Hst].
        * intros Ha p p' (p1 & p2 & q & A & B & C1 & C2 & C3 & C4 & C5 & C6).
          apply in_app_iff in A as [A|[<-|[]]]; [|assert (p1 = pos) by congruence; subst; rewrite Ef in C4; destruct C4].
          apply in_app_iff in B as [B|[<-|[]]]; [|assert (p2 = pos) by congruence; subst; rewrite Ef in C5; destruct C5].
          apply (T3 Ha p p'). exists p1, p2, q. auto 10.
      + rewrite <- Ef. set (set0 := match map_find (p_sym pos) targets with Some l => l | None => [] end).
        assert (S0 : incr set0 /\ forall q, In q set0 <-> step n (elem_of pre) (p_sym pos) q \/ In q []).
        { unfold set0. specialize (T2 (p_sym pos)). destruct (map_find (p_sym pos) targets) as [l0|].
          - destruct T2 as (A & B & C). split; [exact A|]. intros q. rewrite C. cbn [In]. tauto.
          - split; [constructor|]. intros q. specialize (T2 q). cbn [In]. tauto. }
        destruct S0 as [S1 S2].
        pose proof (add_followers_ok pre x pos Hvp (p_follow pos) [] set0 (incr_nodup _ (follow_incr n ts K x pos E)) S1 S2 ltac:(intros _ q [])) as H.
        cbn [app] in H. destruct (add_followers n config pre x pos (p_follow pos) set0) as [set'|e|]; cbn [bind]; [| |exact H].
        * destruct H as (H1 & H2 & H3). apply IH; try assumption. split; [now apply map_put_sorted|]. split.
          -- intros y. destruct (psym_cases y (p_sym pos)) as [[Hy|Hy]|Hy]; [|subst y|].
             2:{ rewrite map_find_put_same by exact T1. split; [exact H1|]. split.
                 - intros ->. apply (proj2 (H2 f)). right. rewrite Ef. now left.
                 - intros q. rewrite H2, step_app. split; [intros [A|A]; [now left|right; exists pos; auto]|].
                   intros [A|(pos' & E' & _ & A)]; [now left|right]. congruence. }
             all: (rewrite map_find_put_other by (try exact T1; intros ->; now apply pslt_irrefl in Hy);
               assert (Hst : forall q, step n (elem_of (pre ++ [x])) y q <-> step n (elem_of pre) y q)
                 by (intros q; rewrite step_app; split; [|auto]; intros [A|(pos' & E' & A & _)]; [exact A|];
                     exfalso; assert (pos' = pos) by congruence; subst; now apply pslt_irrefl in Hy);
               specialize (T2 y); destruct (map_find y targets);
               [destruct T2 as (A & B & C); repeat split; try assumption; intros; [apply Hst; now apply C|apply C; now apply Hst]
               |intros q; rewrite Hst; apply T2]).
          -- intros Ha p p' (p1 & p2 & q & A & B & C1 & C2 & C3 & C4 & C5 & C6).
             apply in_app_iff in A as [A|[<-|[]]]; apply in_app_iff in B as [B|[<-|[]]].
             ++ apply (T3 Ha p p'). exists p1, p2, q. auto 10.
             ++ assert (p2 = pos) by congruence. subst p2. apply (H3 Ha q C5). exists p, p1. auto.
             ++ assert (p1 = pos) by congruence. subst p1. apply (H3 Ha q C4). exists p', p2. auto.
             ++ congruence.
        * destruct H as (Ha & p & pos' & q & -> & Hp & Ep & Es & Hq & Hq'). cbn [true_error]. split; [exact Ha|]. destruct Hr as (w & Hr).
          exists w, p, x, pos', pos. assert (Hc : conflict n (reach n w) p x).
          { exists pos', pos, q. repeat split; try assumption.
            - apply Hr. apply in_or_app. left. apply in_or_app. now left.
            - apply Hr. apply in_or_app. left. apply in_or_app. right. now left.
            - intros ->. contradiction. }
          assert (Hpp : p_pattern pos' = p_pattern pos).
          { destruct (follow_place n ts K Hnum p pos' q Ep Hq) as (a & Ea & Pa). destruct (follow_place n ts K Hnum x pos q E Hq') as (b & Eb & Pb). congruence. }
          rewrite Hpp. auto 10.
  Qed.

  (* ---- the transitions ---- *)

  Lemma dinv_ext d d' : f_elems d' = f_elems d -> statics d' = statics d -> f_map d' = f_map d -> dinv d -> dinv d'.
  Proof.
    intros H1 H2 H3 [A B C]. constructor.
    - rewrite H1, H2. exact A.
    - rewrite H2, H3. exact B.
    - unfold sets in *. now rewrite H1, H2.
  Qed.

  Lemma nth_ext_error {A} (l : list A) : forall l', (forall i, nth_error l i = nth_error l' i) -> l = l'.
  Proof.
    induction l as [|x l IH]; intros [|y l'] H; [reflexivity|specialize (H 0); discriminate|specialize (H 0); discriminate|].
    f_equal; [specialize (H 0); cbn in H; congruence|]. apply IH. intros i. exact (H (S i)).
  Qed.

  Lemma retrans d k s tr : nth_error (f_states d) k = Some s ->
    exists states, set_nth (f_states d) k (Dstate (d_positions s) (d_finalpos s) tr) = Some states /\
      statics (Dfa (f_elems d) states (f_map d)) = statics d /\
      nth_error states k = Some (Dstate (d_positions s) (d_finalpos s) tr) /\
      (forall j, j <> k -> nth_error states j = nth_error (f_states d) j).
  Proof.
    intros E. destruct (set_nth (f_states d) k (Dstate (d_positions s) (d_finalpos s) tr)) as [states|] eqn:Es.
    2:{ assert (k < length (f_states d)) by (apply nth_error_Some; congruence). rewrite set_nth_some in Es by assumption. discriminate. }
    pose proof (fun i => nth_error_set_nth _ _ _ _ i Es) as Hn. exists states. split; [reflexivity|].
    assert (Hk : nth_error states k = Some (Dstate (d_positions s) (d_finalpos s) tr)) by (rewrite Hn, Nat.eqb_refl; reflexivity).
    assert (Ho : forall j, j <> k -> nth_error states j = nth_error (f_states d) j).
    { intros j Hj. rewrite Hn. apply Nat.eqb_neq in Hj. now rewrite Hj. }
    split; [|auto]. unfold statics. cbn [f_states]. apply nth_ext_error. intros i. rewrite !nth_error_map.
    destruct (Nat.eq_dec i k) as [->|Hi]; [rewrite Hk, E; reflexivity|now rewrite Ho].
  Qed.

  Lemma add_transitions_ok k X : is_reach X -> forall targets d s, dinv d -> nth_error (f_states d) k = Some s ->
    frozen (f_elems d) (d_positions s) = X -> sorted (d_transitions s) -> sorted targets ->
    (forall y l, In (y, l) targets -> incr l /\ l <> [] /\ forall q, In q l <-> step n (elem_of X) y q) ->
    match add_transitions n config delegs d k targets with
    | Ok d' => dinv d' /\ evolve k d d' /\ exists s', nth_error (f_states d') k = Some s' /\
        d_positions s' = d_positions s /\ d_finalpos s' = d_finalpos s /\ sorted (d_transitions s') /\
        (forall y l, In (y, l) targets -> exists t, map_find y (d_transitions s') = Some t /\ nth_error (sets d') t = Some l) /\
        (forall y, (forall l, ~ In (y, l) targets) -> map_find y (d_transitions s') = map_find y (d_transitions s)) /\
        (d_transitions s = [] -> targets <> [] -> forall p i, d_finalpos s = Some p -> final_of n i p -> nth_error delegs i = Some false)
    | Err e => true_error e
    | Bad => False
    end.
  Proof.
    intros HX. induction targets as [|[y l] targets IH]; intros d s D Es EX Hst Hsd Ht; cbn [add_transitions].
    - split; [exact D|]. split; [apply evolve_refl|]. exists s. split; [exact Es|]. split; [reflexivity|]. split; [reflexivity|]. split; [exact Hst|]. split; [intros y l []|]. split; [auto|]. intros _ H. contradiction.
    - destruct (Ht y l (or_introl eq_refl)) as (Hi & Hne & Hl). destruct l as [|x0 l0] eqn:El; [contradiction|]. rewrite <- El in *.
      assert (Hr : is_reach l).
      { destruct HX as (w & HX). exists (w ++ [y]). intros q. rewrite Hl, reach_snoc. apply step_ext. exact HX. }
      pose proof (ensure_state_ok k d l D Hi Hr) as H. destruct (ensure_state n config d l) as [[d1 t]|e|]; cbn [bind]; [| |exact H].
      2:{ exact H. }
      destruct H as (D1 & E1 & St & Same). assert (Hk : k < length (f_states d)) by (apply nth_error_Some; congruence).
      rewrite (Same k Hk), Es. cbn [get bind].
      assert (Hstat : static_ok (f_elems d) (d_positions s, d_finalpos s)) by (apply (dv_static d D); eapply statics_in; exact Es).
      set (chk := match d_transitions s, d_finalpos s with [], Some _ => _ | _, _ => Ok tt end).
      assert (Hchk : match chk with
        | Ok _ => d_transitions s = [] -> forall p i, d_finalpos s = Some p -> final_of n i p -> nth_error delegs i = Some false
        | Err e => true_error e
        | Bad => False
        end).
      { unfold chk. destruct (d_transitions s) as [|z zs]; [|discriminate]. destruct (d_finalpos s) as [p|] eqn:Efp; [|discriminate].
        pose proof (so_final _ _ Hstat) as Hf. cbn [fst snd final_ok] in Hf. rewrite EX in Hf. destruct Hf as (Hp & i & (pos & Ep & Fp & Pi) & Hmin).
        unfold get_position. rewrite Ep. cbn [get bind].
        destruct (nth_error delegs (p_pattern pos)) as [b|] eqn:Eb.
        2:{ apply nth_error_None in Eb. pose proof (pattern_range n ts K Hnum p pos Ep). lia. }
        cbn [get bind]. destruct b.
        - cbn [true_error]. exists (p_pattern pos). split; [reflexivity|]. split; [exact Eb|]. destruct HX as (w & HX).
          assert (Hq : step n (reach n w) y x0). { apply (step_ext n (elem_of X)); [exact HX|]. apply Hl. rewrite El. now left. }
          apply reach_snoc in Hq. destruct (reach_pos n ts K Hnum _ _ Hq) as (posq & Eq). destruct (viable_from n ts K Hnum _ _ Hq posq Eq) as (u & Hu).
          exists w, y, u, (p_pattern posq). rewrite <- app_assoc in Hu. split; [|exact Hu]. split.
          + apply (matches_iff n ts K). exists p. split; [now apply HX|]. exists pos. auto.
          + intros j Hj Hm. apply (matches_iff n ts K) in Hm as (q & Hrq & Fq). apply HX in Hrq. destruct (Hmin q j Hrq Fq) as [Hij _]. lia.
        - intros _ p' i' [= <-] (pos' & Ep' & _ & Pi'). assert (pos' = pos) by congruence. subst. exact Eb. }
      destruct chk as [[]|e|]; cbn [bind]; [| |exact Hchk].
      2:{ exact Hchk. }
      assert (Es1 : nth_error (f_states d1) k = Some s) by now rewrite Same.
      destruct (retrans d1 k s (map_put y t (d_transitions s)) Es1) as (states & -> & Hstt & Hsk & Hso). cbn [get bind].
      set (d2 := Dfa (f_elems d1) states (f_map d1)) in *. set (s2 := Dstate (d_positions s) (d_finalpos s) (map_put y t (d_transitions s))) in *.
      assert (D2 : dinv d2) by (apply (dinv_ext d1); auto).
      assert (E2 : evolve k d1 d2).
      { constructor; [exists []; now rewrite app_nil_r|exists []; now rewrite app_nil_r|]. intros j s' Hj Hs'. left. rewrite <- Hs'. symmetry. now apply Hso. }
      assert (EX2 : frozen (f_elems d2) (d_positions s2) = X).
      { rewrite <- EX. unfold d2, s2. cbn [f_elems d_positions]. destruct (ev_elems _ _ _ E1) as (me & ->). apply frozen_old. apply (so_range _ _ Hstat). }
      assert (Hsd' : sorted targets) by (unfold sorted in *; cbn [map] in Hsd; inversion Hsd; assumption).
      assert (Hy : forall l', ~ In (y, l') targets).
      { intros l' Hin. unfold sorted in Hsd. cbn [map fst] in Hsd. inversion Hsd as [|? ? _ F]; subst. rewrite Forall_forall in F.
        apply (pslt_irrefl y). apply F. apply in_map_iff. exists (y, l'). auto. }
      specialize (IH d2 s2 D2 Hsk EX2 (map_put_sorted y t _ Hst) Hsd' (fun y' l' H => Ht y' l' (or_intror H))).
      destruct (add_transitions n config delegs d2 k targets) as [d'|e|]; [|exact IH|exact IH].
      destruct IH as (D' & E' & s' & Es' & P' & F' & So' & In' & Ot' & _). split; [exact D'|].
      split; [exact (evolve_trans _ _ _ _ E1 (evolve_trans _ _ _ _ E2 E'))|]. exists s'. split; [exact Es'|]. split; [exact P'|]. split; [exact F'|]. split; [exact So'|].
      split; [|split].
      + intros y' l' [Heq|Hin]; [|now apply In']. injection Heq as <- <-. exists t. split.
        * rewrite Ot' by exact Hy. unfold s2. cbn [d_transitions]. now apply map_find_put_same.
        * apply (evolve_set k d2 d' t l D2 E'). apply (evolve_set k d1 d2 t l D1 E2). exact St.
      + intros y' Hn'. rewrite Ot'; [|intros l' Hin; apply (Hn' l'); now right]. unfold s2. cbn [d_transitions].
        apply map_find_put_other; [exact Hst|]. intros ->. apply (Hn' l). now left.
      + intros Hnil _. exact (Hchk Hnil).
  Qed.

  (* ---- the loop ---- *)

  (* the transitions of a state are in place *)
  Definition trans_ok (d : dfa) (s : dstate) : Prop :=
    let X := elem_of (frozen (f_elems d) (d_positions s)) in
    sorted (d_transitions s) /\
    (forall y, match map_find y (d_transitions s) with
     | Some t => exists l, nth_error (sets d) t = Some l /\ l <> [] /\ forall q, In q l <-> step n X y q
     | None => forall q, ~ step n X y q
     end) /\
    (forall y q p i, step n X y q -> d_finalpos s = Some p -> final_of n i p -> nth_error delegs i = Some false) /\
    (allow_positional config = false -> forall p p', ~ conflict n X p p').

  Lemma trans_ok_evolve k d d' s : dinv d -> evolve k d d' -> In (d_positions s, d_finalpos s) (statics d) -> trans_ok d s -> trans_ok d' s.
  Proof.
    intros D E Hs (T1 & T2 & T3 & T4).
    assert (Ef : frozen (f_elems d') (d_positions s) = frozen (f_elems d) (d_positions s)).
    { destruct (ev_elems _ _ _ E) as (me & ->). apply frozen_old. apply (so_range _ _ (dv_static d D _ Hs)). }
    unfold trans_ok. rewrite Ef. split; [exact T1|]. split; [|auto]. intros y. specialize (T2 y).
    destruct (map_find y (d_transitions s)) as [t|]; [|exact T2]. destruct T2 as (l & A & B). exists l. split; [|exact B].
    eapply evolve_set; eassumption.
  Qed.

  Lemma sets_bound d : dinv d -> length (f_states d) <= 2 ^ length (n_positions n).
  Proof.
    intros D. rewrite <- statics_length. replace (length (statics d)) with (length (sets d)) by apply map_length.
    rewrite <- subsets_length. apply NoDup_incl_length; [apply (dv_distinct d D)|]. intros l Hl. unfold sets in Hl.
    apply in_map_iff in Hl as (x & <- & Hx). destruct (dv_static d D x Hx) as [A B C _]. apply subsets_all; [exact B|].
    intros p Hp. destruct (reach_valid _ C p Hp) as (pos & E). apply nth_error_Some. congruence.
  Qed.

  Definition progress (d : dfa) (k : nat) : Prop :=
    forall j s, nth_error (f_states d) j = Some s -> if j <? k then trans_ok d s else d_transitions s = [].

  Lemma dfa_loop_ok fuel : forall d k, dinv d -> progress d k -> k < length (f_states d) -> 2 ^ length (n_positions n) < fuel + k ->
    match dfa_loop n config delegs fuel d k with
    | Ok d' => dinv d' /\ (exists m, sets d' = sets d ++ m) /\ (forall s, In s (f_states d') -> trans_ok d' s)
    | Err e => true_error e
    | Bad => False
    end.
  Proof.
    induction fuel as [|fuel IH]; intros d k D P Hk Hf; cbn [dfa_loop].
    { pose proof (sets_bound d D). lia. }
    destruct (nth_error (f_states d) k) as [s|] eqn:Es; [|apply nth_error_None in Es; lia]. cbn [get bind].
    pose proof (P k s Es) as Pk. rewrite Nat.ltb_irrefl in Pk. rewrite Pk.
    set (X := frozen (f_elems d) (d_positions s)).
    assert (Hin : In (d_positions s, d_finalpos s) (statics d)) by (eapply statics_in; exact Es).
    destruct (dv_static d D _ Hin) as [R1 R2 R3 R4]. cbn [fst snd] in *. fold X in R2, R3, R4.
    pose proof (make_targets_ok X [] [] R2 R3) as HT. cbn [app] in HT. specialize (HT ltac:(
      split; [constructor|split; [cbn [map_find]; intros y q (p & pos & [] & _)|intros _ p p' (p1 & p2 & q & [] & _)]])).
    destruct (make_targets n config [] X []) as [targets|e|]; cbn [bind]; [|exact HT|exact HT].
    destruct HT as (T1 & T2 & T3).
    assert (Ht : forall y l, In (y, l) targets -> incr l /\ l <> [] /\ forall q, In q l <-> step n (elem_of X) y q).
    { intros y l Hl. apply map_find_in in Hl; [|exact T1]. specialize (T2 y). rewrite Hl in T2. exact T2. }
    assert (Hs0 : sorted (d_transitions s)) by (rewrite Pk; constructor).
    pose proof (add_transitions_ok k X R3 targets d s D Es eq_refl Hs0 T1 Ht) as HA.
    destruct (add_transitions n config delegs d k targets) as [d'|e|]; cbn [bind]; [|exact HA|exact HA].
    destruct HA as (D' & E' & s' & Es' & P' & F' & So' & In' & Ot' & Del').
    pose proof (evolve_length _ _ _ E') as Hlen. destruct (evolve_sets k d d' D E') as (m & Hm).
    assert (EX' : frozen (f_elems d') (d_positions s') = X).
    { rewrite P'. destruct (ev_elems _ _ _ E') as (me & ->). now apply frozen_old. }
    assert (Tk : trans_ok d' s').
    { unfold trans_ok. rewrite EX'. split; [exact So'|]. split; [|split; [|exact T3]].
      - intros y. specialize (T2 y). destruct (map_find y targets) as [l|] eqn:Ey.
        + apply map_find_in in Ey; [|exact T1]. destruct (In' y l Ey) as (t & -> & Hl). exists l. split; [exact Hl|tauto].
        + rewrite Ot'; [|intros l Hl; apply map_find_in in Hl; [congruence|exact T1]]. rewrite Pk. cbn [map_find]. exact T2.
      - intros y q p i Hq Hp Fi. rewrite F' in Hp. apply (Del' Pk) with p; try assumption. intros ->. specialize (T2 y). cbn [map_find] in T2. exact (T2 q Hq). }
    assert (PS : progress d' (S k)).
    { intros j sj Ej. destruct (Nat.eq_dec j k) as [->|Hj].
      - rewrite (proj2 (Nat.ltb_lt k (S k))) by lia. assert (sj = s') by congruence. now subst.
      - destruct (ev_states _ _ _ E' j sj Hj Ej) as [Old|[Hl Hnew]].
        + pose proof (P j sj Old) as Pj. destruct (Nat.ltb_spec j k); destruct (Nat.ltb_spec j (S k)); try lia; [|exact Pj].
          apply (trans_ok_evolve k d d' sj D E'); [eapply statics_in; exact Old|exact Pj].
        + destruct (Nat.ltb_spec j (S k)); [lia|exact Hnew]. }
    destruct (Nat.ltb_spec (S k) (length (f_states d'))) as [Hlt|Hge].
    - specialize (IH d' (S k) D' PS Hlt ltac:(lia)). destruct (dfa_loop n config delegs fuel d' (S k)) as [d2|e|]; [|exact IH|exact IH].
      destruct IH as (A & (m2 & B) & C). split; [exact A|]. split; [|exact C]. exists (m ++ m2). now rewrite B, Hm, app_assoc.
    - split; [exact D'|]. split; [eauto|]. intros sj Hsj. apply In_nth_error in Hsj as (j & Ej). specialize (PS j sj Ej).
      assert (j < length (f_states d')) by (apply nth_error_Some; congruence). destruct (Nat.ltb_spec j (S k)); [exact PS|lia].
  Qed.

  Lemma build_dfa_ok fuel : 2 ^ length (n_positions n) < fuel ->
    match build_dfa n config delegs fuel with
    | Ok d => dinv d /\ nth_error (sets d) 0 = Some (n_start n) /\ (forall s, In s (f_states d) -> trans_ok d s)
    | Err e => true_error e
    | Bad => False
    end.
  Proof.
    intros Hf. unfold build_dfa.
    assert (D0 : dinv (Dfa [] [] [])) by (constructor; [intros x []|reflexivity|constructor]).
    assert (Hr : is_reach (n_start n)) by (exists []; intros q; now rewrite reach_nil).
    pose proof (ensure_state_ok 0 (Dfa [] [] []) (n_start n) D0 (ok_start_incr _ _ K) Hr) as H.
    destruct (ensure_state n config (Dfa [] [] []) (n_start n)) as [[d t]|e|] eqn:Een; cbn [bind]; [|exact H|exact H].
    destruct H as (D & E & St & _).
    assert (Hlen : length (f_states d) = 1 /\ t = 0).
    { unfold ensure_state in Een. cbn [f_map find_state f_elems f_states length app] in Een. destruct (find_finalpos _ _ _ _); cbn [bind] in Een; [|discriminate|discriminate].
      injection Een as <- <-. auto. }
    destruct Hlen as [Hlen ->].
    assert (P : progress d 0).
    { intros j s Ej. cbn [Nat.ltb Nat.leb]. destruct j as [|j].
      - unfold ensure_state in Een. cbn [f_map find_state f_elems f_states length app] in Een. destruct (find_finalpos _ _ _ _); cbn [bind] in Een; [|discriminate|discriminate].
        injection Een as <-. cbn in Ej. now injection Ej as <-.
      - assert (S j < length (f_states d)) by (apply nth_error_Some; congruence). lia. }
    pose proof (dfa_loop_ok fuel d 0 D P ltac:(lia) ltac:(lia)) as H. destruct (dfa_loop n config delegs fuel d 0) as [d'|e|]; [|exact H|exact H].
    destruct H as (A & (m & B) & C). split; [exact A|]. split; [|exact C]. rewrite B. rewrite nth_error_app1; [exact St|]. apply nth_error_Some. congruence.
  Qed.
End Dfa.
