(* Theorems about the command-line pattern matcher. *)
From Coq Require Import List Arith Bool Lia.
From Verif Require Import CliPatternModel CliPatternSpec CliTreeProofs CliBuilderProofs CliNfaProofs CliNfaProps CliMatcherModel CliMatcherSpec
  CliReachProofs CliDfaProofs CliDfaProofs2 CliMatcherProofs.
Import ListNotations.

(* the number of positions in the NFA that belong to the patterns before the i'th one: one
   for each symbol, and one for the end of each pattern *)
Definition positions_before (ts : list tseq) (i : nat) : nat :=
  list_sum (map (fun t => S (length (seq_syms t))) (firstn i ts)).

Lemma positions_before_offs ts : forall i, i <= length ts -> positions_before ts i = offs ts i.
Proof.
  induction ts as [|t ts IH]; intros i Hi.
  - destruct i; reflexivity.
  - destruct i as [|i]; [reflexivity|]. cbn [length] in Hi. specialize (IH i ltac:(lia)). unfold positions_before in *. cbn [firstn map list_sum fold_right offs] in *.
    rewrite <- IH. reflexivity.
Qed.

Lemma make_matcher_ok st patterns ts num_args config : patterns <> [] -> Forall2 (rep_pattern st) (map fst patterns) ts ->
  exists f n, nfa_ok n ts /\ Forall numbered ts /\ length (map snd patterns) = length ts /\ forall fuel, f <= fuel ->
    match make_matcher fuel st patterns num_args config with
    | Ok m => exists d, m = Matcher (map snd patterns) num_args n (f_elems d) (f_states d) 0 [] /\ dinv n config d /\
        nth_error (sets d) 0 = Some (n_start n) /\ forall s, In s (f_states d) -> trans_ok n config (map snd patterns) d s
    | Err e => true_error n ts config (map snd patterns) e
    | Bad => False
    end.
Proof.
  intros Hne H. destruct (build_nfa_total st (map fst patterns) ts H) as (f & n & E & K).
  assert (Hnum : Forall numbered ts).
  { clear - H. induction H as [|a t l ts R H IH]; constructor; [apply R|exact IH]. }
  assert (Hlen : length (map snd patterns) = length ts).
  { clear - H. rewrite map_length. rewrite <- (map_length fst). induction H; cbn [length]; congruence. }
  exists (f + S (2 ^ length (n_positions n))), n. split; [exact K|]. split; [exact Hnum|]. split; [exact Hlen|].
  intros fuel Hf. unfold make_matcher. destruct patterns as [|x patterns]; [contradiction|].
  rewrite E by lia. cbn [get bind]. pose proof (build_dfa_ok n ts config _ K Hnum Hlen fuel ltac:(lia)) as B.
  destruct (build_dfa n config (map snd (x :: patterns)) fuel) as [d|e|]; cbn [bind]; [|exact B|exact B].
  exists d. split; [reflexivity|exact B].
Qed.

(* C75: for every list of patterns represented in the structure, the construction of the
   matcher ends (the number of states is bounded), fails no assertion, and reports an error
   exactly if the patterns have one of the defects that the configuration does not allow.
   The error names patterns that have the defect.  The two symbols in the error about
   positional ambiguity are offset by the number of positions of the prior patterns. *)
Theorem matcher_construction_exact : forall st patterns ts num_args config,
  patterns <> [] -> Forall2 (rep_pattern st) (map fst patterns) ts ->
  exists f, forall fuel, f <= fuel ->
    match make_matcher fuel st patterns num_args config with
    | Ok _ =>
      (allow_cross config = false -> forall i j, ~ cross_ambiguous ts i j) /\
      (allow_positional config = false -> forall i, ~ positionally_ambiguous ts i) /\
      (forall i, ~ prefix_deleg ts (map snd patterns) i)
    | Err (cross_pattern_ambiguity a b) =>
      allow_cross config = false /\ exists i j, a = 1 + i /\ b = 1 + j /\ cross_ambiguous ts i j
    | Err (positional_ambiguity a b c) =>
      allow_positional config = false /\ exists i x y, a = 1 + i /\ b = 1 + positions_before ts i + x /\
        c = 1 + positions_before ts i + y /\ positions_ambiguous ts i x y /\ positionally_ambiguous ts i
    | Err (prefix_deleg_pattern a) => exists i, a = 1 + i /\ prefix_deleg ts (map snd patterns) i
    | Bad => False
    end.
Proof.
  intros st patterns ts num_args config Hne H. destruct (make_matcher_ok st patterns ts num_args config Hne H) as (f & n & K & Hnum & Hlen & M).
  exists f. intros fuel Hf. specialize (M fuel Hf). destruct (make_matcher fuel st patterns num_args config) as [m|e|]; [| |exact M].
  - destruct M as (d & _ & D & D0 & DT). split; [|split].
    + eapply no_cross; eassumption.
    + eapply no_positional; eassumption.
    + eapply no_prefix; eassumption.
  - destruct e as [a b|a b c|a]; cbn [true_error] in M; [exact M| |exact M].
    destruct M as (Ha & w & p & p' & pos & pos' & C & Ep & Ep' & Pe & -> & -> & ->). split; [exact Ha|].
    destruct (conflict_ambiguous n ts K Hnum w p p' C) as (q1 & q2 & E1 & E2 & _ & A).
    assert (q1 = pos) by congruence. assert (q2 = pos') by congruence. subst q1 q2.
    destruct (position_place n ts K Hnum _ _ Ep) as (t & Et & _ & Hp). destruct (position_place n ts K Hnum _ _ Ep') as (t' & Et' & _ & Hp').
    exists (p_pattern pos), (p_ipos pos), (p_ipos pos'). assert (p_pattern pos < length ts) by (apply nth_error_Some; congruence).
    rewrite positions_before_offs by lia. split; [reflexivity|]. split; [lia|]. split; [rewrite Hp', <- Pe; lia|]. split; [exact A|].
    exact (ambiguous_some n ts _ _ _ A).
Qed.
Print Assumptions matcher_construction_exact.

(* C76: whatever was consumed, a symbol is consumed exactly if it leads on towards a match
   of some pattern; the pattern reported as the matching one is the first one that matches
   what was consumed; and the predictions about further symbols and about delegation are
   right.  No assertion fails. *)
Theorem matcher_run_exact : forall st patterns ts num_args config,
  patterns <> [] -> Forall2 (rep_pattern st) (map fst patterns) ts ->
  exists f, forall fuel m0, f <= fuel -> make_matcher fuel st patterns num_args config = Ok m0 ->
    forall m acc, reached m0 m acc ->
      let w := map fst acc in
      (forall s a, a < num_args -> exists m' b, consume m s a = Ok (m', b) /\ (b = true <-> viable ts (w ++ [s])) /\ (b = false -> m' = m)) /\
      (exists o, is_match m = Ok o /\ forall i, o = Some i <-> first_match ts i w) /\
      (exists b, can_consume m = Ok b /\ (b = true <-> exists i s u, matches ts i (w ++ s :: u))) /\
      (exists b, can_delegate m = Ok b /\ (b = true <-> exists i u, nth_error (map snd patterns) i = Some true /\ matches ts i (w ++ u))).
Proof.
  intros st patterns ts num_args config Hne H. destruct (make_matcher_ok st patterns ts num_args config Hne H) as (f & n & K & Hnum & Hlen & M).
  exists f. intros fuel m0 Hf E m acc R. specialize (M fuel Hf). rewrite E in M. destruct M as (d & -> & D & D0 & DT).
  pose proof (reached_inv n ts config _ K Hnum Hlen d D D0 DT num_args m acc R) as I. cbv zeta. split; [|split; [|split]].
  - intros s a Ha. destruct (consume_ok n ts config _ K Hnum Hlen d D DT num_args m acc s a I Ha) as (m' & b & A & B & C).
    exists m', b. split; [exact A|]. split; [exact B|]. now intros ->.
  - eapply is_match_ok; eassumption.
  - eapply can_consume_ok; eassumption.
  - eapply can_delegate_ok; eassumption.
Qed.
Print Assumptions matcher_run_exact.

(* C77: if the consumed symbols are matched by a pattern, backtracking yields a match of the
   first such pattern: for each consumed symbol its position in the pattern and the argument
   it came from, followed by the end position and the number of arguments.  In case of
   ambiguity, it is the match that has the smallest position at the last place where it
   differs from another match.  Otherwise an assertion fails. *)
Theorem matcher_backtrack_exact : forall st patterns ts num_args config,
  patterns <> [] -> Forall2 (rep_pattern st) (map fst patterns) ts ->
  exists f, forall fuel m0, f <= fuel -> make_matcher fuel st patterns num_args config = Ok m0 ->
    forall m acc, reached m0 m acc ->
      let w := map fst acc in
      (forall i t, first_match ts i w -> nth_error ts i = Some t ->
        exists mw, backtrack m = Ok (combine (map fst mw) (map snd acc) ++ [(length (seq_syms t), num_args)]) /\
          m_seq t mw /\ map snd mw = w /\
          forall mw', m_seq t mw' -> map snd mw' = w -> mw' = mw \/ right_before mw mw') /\
      ((forall i, ~ matches ts i w) -> backtrack m = Bad).
Proof.
  intros st patterns ts num_args config Hne H. destruct (make_matcher_ok st patterns ts num_args config Hne H) as (f & n & K & Hnum & Hlen & M).
  exists f. intros fuel m0 Hf E m acc R. specialize (M fuel Hf). rewrite E in M. destruct M as (d & -> & D & D0 & DT).
  pose proof (reached_inv n ts config _ K Hnum Hlen d D D0 DT num_args m acc R) as I. cbv zeta. split.
  - intros i t Hm Et. eapply backtrack_ok; eassumption.
  - intros Hn. eapply backtrack_no_match; eassumption.
Qed.
Print Assumptions matcher_backtrack_exact.

(* ---- concrete cases ---- *)

Definition outcome_is {A} (P : A -> bool) (o : outcome A) : bool := match o with Ok a => P a | _ => false end.

Definition strict := Mconfig false false.

(* the two patterns of CliNfaProps.v *)
Example construction_concrete : exists m, make_matcher 300 ex_st [(4, false); (6, false)] 3 strict = Ok m /\ length (m_states m) = 4.
Proof. eexists. split; [vm_compute; reflexivity|reflexivity]. Qed.

(* the second pattern is delegating, and has a match that is a prefix of another one *)
Example construction_prefix : make_matcher 300 ex_st [(4, false); (6, true)] 3 strict = Err (prefix_deleg_pattern 2).
Proof. vm_compute. reflexivity. Qed.

Example construction_cross : make_matcher 300 ex_st [(6, false); (6, false)] 3 strict = Err (cross_pattern_ambiguity 1 2).
Proof. vm_compute. reflexivity. Qed.

Definition feed (m : matcher) (l : list (psym * nat)) : outcome (matcher * list bool) :=
  fold_left (fun o x => let! (m, bs) := o in let! (m, b) := consume m (fst x) (snd x) in Ok (m, bs ++ [b])) l (Ok (m, [])).

Example run_concrete :
  (let! m := make_matcher 300 ex_st [(4, false); (6, false)] 4 strict in
   let! (m, bs) := feed m [(ex_kw0, 0); (ex_op0, 1); (ex_kw0, 1); (ex_val, 2); (ex_kw1, 3)] in
   let! o := is_match m in
   let! c := can_consume m in
   let! l := backtrack m in
   Ok (bs, o, c, l)) =
  Ok ([true; true; false; true; true], Some 0, true, [(0, 0); (1, 1); (2, 2); (3, 3); (4, 4)]).
Proof. vm_compute. reflexivity. Qed.

(* Pattern 0 is keyword 0, pattern 1 is two optional values, pattern 2 is
   (value value | value) repeated. *)
Definition ex_st2 : structure := Structure
  [ex_kw0; ex_val]
  [ Elem t_sym false true 0 1;                                    (* 0: first pattern *)
    Elem t_sym true false 1 1; Elem t_sym true false 1 2;         (* 1, 2: in [ ] *)
    Elem t_opt true false 1 1; Elem t_opt true false 2 2;         (* 3, 4: second pattern *)
    Elem t_sym true false 1 1; Elem t_sym true false 1 2;         (* 5, 6: branch *)
    Elem t_sym true false 1 3;                                    (* 7: branch *)
    Elem t_alt true false 0 3;                                    (* 8: operand *)
    Elem t_rep true false 6 3 ]                                   (* 9: third pattern *)
  [ Seq 1 0 0 1 false; Seq 1 1 1 1 false; Seq 1 2 1 2 false; Seq 2 3 2 2 true;
    Seq 2 5 2 2 false; Seq 1 7 1 3 false; Seq 1 8 1 3 false; Seq 1 9 1 3 false ]
  [ Alt 2 4 0 ].
Definition sym1 (i : nat) (s : psym) : tseq := SCons (ESym i s) SNil.
Definition ex2_t0 : tseq := sym1 0 ex_kw0.
Definition ex2_t1 : tseq := SCons (EOpt (sym1 0 ex_val)) (SCons (EOpt (sym1 1 ex_val)) SNil).
Definition ex2_t2 : tseq :=
  SCons (ERep (SCons (EAlt (BCons (SCons (ESym 0 ex_val) (sym1 1 ex_val)) (BOne (sym1 2 ex_val)))) SNil)) SNil.

Lemma ex2_rep : Forall2 (rep_pattern ex_st2) [0; 3; 7] [ex2_t0; ex2_t1; ex2_t2].
Proof.
  assert (S0 : rep_seq ex_st2 0 ex2_t0).
  { econstructor; [reflexivity|repeat (econstructor; try reflexivity)|split; intro; [discriminate|unfold ex2_t0, sym1 in *; empty_absurd]]. }
  assert (S1 : rep_seq ex_st2 1 (sym1 0 ex_val)).
  { econstructor; [reflexivity|repeat (econstructor; try reflexivity)|split; intro; [discriminate|unfold sym1 in *; empty_absurd]]. }
  assert (S2 : rep_seq ex_st2 2 (sym1 1 ex_val)).
  { econstructor; [reflexivity|repeat (econstructor; try reflexivity)|split; intro; [discriminate|unfold sym1 in *; empty_absurd]]. }
  assert (S3 : rep_seq ex_st2 3 ex2_t1).
  { econstructor; [reflexivity| |].
    - cbn. eapply rep_cons; [reflexivity|eapply rep_opt; [reflexivity|exact S1]|]. eapply rep_cons; [reflexivity|eapply rep_opt; [reflexivity|exact S2]|apply rep_nil].
    - split; intros _; [|reflexivity]. change (@nil (nat * psym)) with (@nil (nat * psym) ++ [] ++ []).
      apply m_cons; [apply m_opt_absent|]. apply m_cons; [apply m_opt_absent|apply m_nil]. }
  assert (S4 : rep_seq ex_st2 4 (SCons (ESym 0 ex_val) (sym1 1 ex_val))).
  { econstructor; [reflexivity|repeat (econstructor; try reflexivity)|split; intro; [discriminate|unfold sym1 in *; empty_absurd]]. }
  assert (S5 : rep_seq ex_st2 5 (sym1 2 ex_val)).
  { econstructor; [reflexivity|repeat (econstructor; try reflexivity)|split; intro; [discriminate|unfold sym1 in *; empty_absurd]]. }
  assert (S6 : rep_seq ex_st2 6 (SCons (EAlt (BCons (SCons (ESym 0 ex_val) (sym1 1 ex_val)) (BOne (sym1 2 ex_val)))) SNil)).
  { econstructor; [reflexivity| |split; intro; [discriminate|unfold sym1 in *; empty_absurd]].
    cbn. eapply rep_cons; [reflexivity| |apply rep_nil]. eapply rep_alt; [reflexivity|reflexivity|]. cbn.
    apply rep_more; [exact S4|]. apply rep_one. exact S5. }
  assert (S7 : rep_seq ex_st2 7 ex2_t2).
  { econstructor; [reflexivity| |].
    - cbn. eapply rep_cons; [reflexivity|eapply rep_rep; [reflexivity|exact S6]|apply rep_nil].
    - split; [discriminate|]. intros H. exfalso.
      unfold ex2_t2 in H. inversion H as [|e q w1 w2 H1 H2 E1 E2]; subst. apply app_eq_nil in E2 as [-> ->]. clear - H1.
      assert (G : forall e w, m_elem e w -> e = ERep (SCons (EAlt (BCons (SCons (ESym 0 ex_val) (sym1 1 ex_val)) (BOne (sym1 2 ex_val)))) SNil) -> w <> []).
      { intros e w M. destruct M; intros [=]; subst; unfold sym1 in *; intros Hw; try (apply app_eq_nil in Hw as [-> _]); subst; empty_absurd. }
      exact (G _ _ H1 eq_refl eq_refl). }
  constructor; [|constructor; [|constructor; [|constructor]]]; (split; [assumption|]; split; [reflexivity|]; eexists; split; reflexivity).
Qed.

Example run_concrete_deleg :
  (let! m := make_matcher 300 ex_st2 [(0, true); (3, false)] 4 (Mconfig true true) in
   let! c1 := can_delegate m in
   let! (m, bs) := feed m [(ex_val, 0)] in
   let! c2 := can_delegate m in
   Ok (c1, bs, c2)) = Ok (true, [true], false).
Proof. vm_compute. reflexivity. Qed.

(* what a pattern matches consists of its symbols *)
Lemma m_syms : (forall e w, m_elem e w -> forall x, In x w -> In x (elem_syms e)) /\
  (forall q w, m_seq q w -> forall x, In x w -> In x (seq_syms q)) /\
  (forall b w, m_branches b w -> forall x, In x w -> In x (branches_syms b)).
Proof.
  apply m_ind; cbn [elem_syms seq_syms branches_syms]; intros; auto;
    repeat match goal with H : In _ (_ ++ _) |- _ => apply in_app_iff in H as [H|H] end; try (apply in_or_app; auto); auto.
  all: match goal with H : In _ [] |- _ => destruct H end.
Qed.

(* The error about positional ambiguity does not always name the symbols of the pattern: here
   the 3rd and 4th symbol of a pattern that has two. *)
Theorem positional_message_refuted : exists st patterns ts num_args config fuel i b c,
  Forall2 (rep_pattern st) (map fst patterns) ts /\
  make_matcher fuel st patterns num_args config = Err (positional_ambiguity (1 + i) (1 + b) (1 + c)) /\
  ~ positions_ambiguous ts i b c.
Proof.
  exists ex_st2, [(0, false); (3, false); (7, false)], [ex2_t0; ex2_t1; ex2_t2], 3, strict, 300, 1, 2, 3.
  split; [exact ex2_rep|]. split; [vm_compute; reflexivity|].
  intros (t & u1 & u2 & s & v & [= <-] & M & _). apply (proj1 (proj2 m_syms)) with (x := (2, s)) in M; [|apply in_or_app; right; now left].
  cbn in M. destruct M as [[=]|[[=]|[]]].
Qed.
Print Assumptions positional_message_refuted.

(* The match is not always the one with the smallest position at the first place where it
   differs: for three values, it is the one where the first value goes to the third
   position, although there is one where it goes to the first position. *)
Theorem backtrack_leftmost_refuted : exists st patterns ts num_args config fuel m0 m acc t mw',
  Forall2 (rep_pattern st) (map fst patterns) ts /\ make_matcher fuel st patterns num_args config = Ok m0 /\
  reached m0 m acc /\ nth_error ts 0 = Some t /\ first_match ts 0 (map fst acc) /\
  backtrack m = Ok [(2, 0); (0, 1); (1, 2); (3, 3)] /\
  m_seq t mw' /\ map snd mw' = map fst acc /\ map fst mw' = [0; 1; 2].
Proof.
  assert (R : Forall2 (rep_pattern ex_st2) [7] [ex2_t2]).
  { pose proof ex2_rep as H. inversion H; subst. inversion H5; subst. assumption. }
  assert (M : m_seq ex2_t2 [(0, ex_val); (1, ex_val); (2, ex_val)]).
  { change [(0, ex_val); (1, ex_val); (2, ex_val)] with (((([(0, ex_val)] ++ ([(1, ex_val)] ++ [])) ++ []) ++ ([(2, ex_val)] ++ []) ++ []) ++ []).
    apply m_cons; [|apply m_nil]. apply m_rep_more; [|apply m_rep_last].
    - apply m_cons; [|apply m_nil]. apply m_alt, m_this. apply m_cons; [apply m_sym|]. apply m_cons; [apply m_sym|apply m_nil].
    - apply m_cons; [|apply m_nil]. apply m_alt, m_other, m_one. apply m_cons; [apply m_sym|apply m_nil]. }
  eexists ex_st2, [(7, false)], [ex2_t2], 3, (Mconfig true true), 300, _, _, [(ex_val, 0); (ex_val, 1); (ex_val, 2)], ex2_t2, [(0, ex_val); (1, ex_val); (2, ex_val)].
  split; [exact R|]. split; [vm_compute; reflexivity|]. split.
  - change [(ex_val, 0); (ex_val, 1); (ex_val, 2)] with ((([] ++ [(ex_val, 0)]) ++ [(ex_val, 1)]) ++ [(ex_val, 2)]).
    eapply reached_consumed; [eapply reached_consumed; [eapply reached_consumed; [apply reached_start|vm_compute; reflexivity]|vm_compute; reflexivity]|vm_compute; reflexivity].
  - split; [reflexivity|]. split.
    + split; [|intros j Hj; lia]. exists ex2_t2, [(0, ex_val); (1, ex_val); (2, ex_val)]. auto.
    + split; [vm_compute; reflexivity|]. auto.
Qed.
Print Assumptions backtrack_leftmost_refuted.
