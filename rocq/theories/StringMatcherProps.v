(* C35: string matching *)
From Coq Require Import ZArith Bool List Arith Lia Sorted.
From Verif Require Import ArrLib StringMatcherModel StringMatcherSpec StringMatcherProofs StringMatcherProofs2
  StringMatcherProofs3 StringMatcherProofs4 WordWrapProofs2.
Import ListNotations.
Open Scope nat_scope.

Section L.
Variables kmin kmax star : Z.
Hypothesis Hk : (kmin <= kmax)%Z.
Variables (pats : list (list Z * Z)) (Hp : Forall (fun p => chars_ok kmin kmax (fst p)) pats).
Variables (b : builder) (B : binv star b pats).
Notation n := (b_nfa b).

Lemma sym_range x y sl c : nth_error (fst n) x = Some sl -> slot_symbol sl = SCharacter c -> follow n x y -> (kmin <= c <= kmax)%Z.
Proof using B Hp.
  intros H1 H2 F. apply (bi_follow _ _ _ B) in F. destruct F as (k & p & i & j & E & _ & Hl & _).
  destruct (slot_at star b pats B _ _ _ _ E) as (sl' & H1' & _ & Es). rewrite H1 in H1'. injection H1' as <-.
  destruct (nth_some p i Hl) as [d Hd]. rewrite (nth_error_nth (map (sym star) p) i (SCharacter 0) (x := sym star d)) in Es
    by (rewrite nth_error_map, Hd; reflexivity).
  rewrite H2 in Es. unfold sym in Es. destruct (Z.eqb d star); [discriminate|]. injection Es as ->.
  apply locate_at in E. destruct E as (E & _). apply nth_error_In in E. apply in_map_iff in E. destruct E as (q & <- & Hq).
  rewrite Forall_forall in Hp. specialize (Hp q Hq). unfold chars_ok in Hp. rewrite Forall_forall in Hp. apply Hp. eapply nth_error_In; eauto.
Qed.

Lemma start_good : good_key kmin kmax n (b_start b) (b_start b).
Proof using B.
  split; [apply (bi_sorted _ _ _ B)|]. split.
  - intros x Hx. rewrite (bi_length _ _ _ B). eapply start_lt; eauto.
  - exists []. split; [constructor|]. reflexivity.
Qed.

Lemma reach_matches s k : reach n (b_start b) s k <-> exists p, nth_error (map fst pats) k = Some p /\ matches star p s.
Proof using B.
  split.
  - intros (x & Hx & A). destruct (acc_pattern star b pats B _ _ _ A) as (p & j & H). apply locate_at in H. destruct H as (H & _).
    exists p. split; [assumption|]. apply (start_sem star b pats B k p s H). exists x. auto.
  - intros (p & H & M). apply (start_sem star b pats B k p s H) in M. exact M.
Qed.

Lemma first_match_intro s (l : list (list Z * Z)) (r : option Z) :
  match r with
  | None => forall k p, nth_error (map fst l) k = Some p -> ~ matches star p s
  | Some id => exists k p, nth_error (map fst l) k = Some p /\ matches star p s /\
      (forall k' p', nth_error (map fst l) k' = Some p' -> matches star p' s -> k <= k') /\ nth_error (map snd l) k = Some id
  end -> first_match star s l r.
Proof.
  revert r. induction l as [|[p id] l IH]; intros r H.
  - destruct r as [id|]; [|constructor]. destruct H as (k & p & H & _). destruct k; discriminate.
  - destruct r as [id'|].
    + destruct H as (k & q & H1 & H2 & H3 & H4). destruct k as [|k].
      * cbn in H1, H4. injection H1 as <-. injection H4 as <-. now constructor.
      * cbn in H1, H4. apply first_match_later.
        -- intros C. specialize (H3 0 p eq_refl C). lia.
        -- apply IH. exists k, q. split; [assumption|]. split; [assumption|]. split; [|assumption].
           intros k' p' H5 H6. specialize (H3 (S k') p' H5 H6). lia.
    + apply first_match_later; [apply (H 0 p eq_refl)|]. apply IH. intros k q Hq. apply (H (S k) q Hq).
Qed.

Lemma build_spec allow fuel : 2 ^ length (fst n) < fuel ->
  exists r, build kmin kmax fuel allow b = Some r /\
  match r with
  | Built m =>
    (forall s, chars_ok kmin kmax s -> exists r, match_string m s = Some r /\ first_match star s pats r) /\
    (allow = false -> forall s i j, chars_ok kmin kmax s -> both_match star pats i j s -> i = j)
  | Ambiguity i j => allow = false /\ i < j /\ exists s, chars_ok kmin kmax s /\ both_match star pats i j s
  end.
Proof using B Hk Hp.
  intros Hf. unfold build. cbn [ensure_state find_state app].
  destruct (build_loop_spec kmin kmax n (b_start b) allow (bi_wf _ _ _ B) Hk) with (fuel := fuel) (keys := [b_start b]) (states := @nil state) (trans := @nil transition)
    as (r & E & Hr).
  - intros x y F. rewrite (bi_length _ _ _ B). eapply follow_lt; eauto.
  - exact sym_range.
  - intros x y k k'. apply (final_mono star b pats B).
  - repeat constructor. intros [].
  - constructor; [apply start_good|constructor].
  - cbn; lia.
  - constructor.
  - cbn; lia.
  - cbn [skipn length] in E. rewrite E. cbn [obind]. destruct r as [[states trans]|i j].
    + eexists. split; [reflexivity|]. cbn. destruct Hr as (more & Hg & HF).
      cbn [app] in HF. assert (HF' := HF). inversion HF as [|K0 st0 ks sts G0 Gr]; subst.
      split.
      * intros s Hs. unfold match_string. cbn [m_patterns m_states].
        destruct (b_patterns b) as [|id0 ids] eqn:Ep.
        { exists None. split; [reflexivity|]. pose proof (bi_patterns _ _ _ B) as Eb. rewrite Ep in Eb. destruct pats; [constructor|discriminate]. }
        cbn [nth_error obind].
        destruct (match_loop_spec kmin kmax n allow (Matcher (id0 :: ids) (st0 :: sts) trans) (b_start b :: more)) with (s := s) (K := b_start b) (st := st0) as (r & Er & Hr); auto.
        { intros x k F. cbn [m_patterns]. apply (final_at star b pats B) in F. destruct F as (p & F). apply locate_at in F. destruct F as (F & _).
          apply nth_lt in F. rewrite map_length in F. rewrite <- Ep, (bi_patterns _ _ _ B), map_length. assumption. }
        exists r. split; [exact Er|]. apply first_match_intro. destruct r as [id|].
        -- destruct Hr as (k & R1 & R2 & R3). apply reach_matches in R1. destruct R1 as (p & H1 & H2). exists k, p. split; [assumption|]. split; [assumption|]. split.
           ++ intros k' p' H3 H4. apply R2. apply reach_matches. eauto.
           ++ cbn [m_patterns] in R3. rewrite <- Ep, (bi_patterns _ _ _ B) in R3. exact R3.
        -- intros k p H1 H2. apply (Hr k). apply reach_matches. eauto.
      * intros Ea s i j Hs (p & q & H1 & H2 & H3 & H4).
        eapply (reach_unique kmin kmax n allow (b_start b :: more) trans (st0 :: sts) Ea HF' s (b_start b) st0 G0 Hs); apply reach_matches; eauto.
    + eexists. split; [reflexivity|]. cbn. destruct Hr as (Ea & Hij & w & Cw & R1 & R2). split; [assumption|]. split; [assumption|].
      exists w. split; [assumption|]. apply reach_matches in R1, R2. destruct R1 as (p & H1 & H2), R2 as (q & H3 & H4). exists p, q. auto.
Qed.
End L.

(* C35: a matcher built with ambiguity between patterns allowed reports the first pattern that
   matches.  Enough fuel exists, that is, the construction terminates. *)
Theorem string_matcher_exact : forall (kmin kmax star : Z) (patterns : list (list Z * Z)),
  (kmin <= kmax)%Z -> Forall (fun p => chars_ok kmin kmax (fst p)) patterns ->
  exists b m fuel_0, add_patterns star new_builder patterns = Some b /\
    (forall fuel, fuel_0 <= fuel -> build kmin kmax fuel true b = Some (Built m)) /\
    forall string, chars_ok kmin kmax string ->
    exists r, match_string m string = Some r /\ first_match star string patterns r.
Proof.
  intros kmin kmax star pats Hk Hp. destruct (binv_adds star pats new_builder [] (binv_new star)) as (b & Eb & B). cbn [app] in B.
  set (f0 := S (2 ^ length (fst (b_nfa b)))).
  destruct (build_spec kmin kmax star Hk pats Hp b B true f0) as (r & E & Hr); [lia|].
  destruct r as [m|i j]; [|destruct Hr; discriminate]. exists b, m, f0. split; [assumption|]. split; [|apply Hr].
  intros fuel Hf. unfold build in E |- *. cbn [ensure_state find_state app] in *.
  assert (Mono : forall f f' keys un states trans r, f <= f' -> build_loop kmin kmax f true (b_nfa b) keys un states trans = Some r ->
    build_loop kmin kmax f' true (b_nfa b) keys un states trans = Some r).
  { clear. induction f as [|f IH]; intros f' keys un states trans r Hf; [discriminate|]. destruct f' as [|f']; [lia|]. cbn [build_loop].
    destruct un as [|set un]; [discriminate|]. destruct (scan kmin kmax true (b_nfa b) set [] None) as [[[t pi]|i j]|]; cbn [obind]; [|auto|discriminate].
    destruct (RangeMapModel.rm_defrag kmin kmax set_eqb t) as [t'|]; cbn [obind]; [|discriminate].
    destruct (add_transitions t' keys (set :: un) trans) as [[[keys' un'] trans']|]; cbn [obind]; [|discriminate].
    destruct (tl un'); [auto|]. apply IH. lia. }
  destruct (build_loop kmin kmax f0 true (b_nfa b) [b_start b] [b_start b] [] []) as [r|] eqn:El; [|discriminate].
  rewrite (Mono _ fuel _ _ _ _ _ Hf El). exact E.
Qed.

(* C35: a builder that does not allow ambiguity between patterns produces a matcher exactly when
   no string is matched by two of the patterns, and otherwise names two patterns with a string
   matched by both. *)
Theorem string_matcher_ambiguity : forall (kmin kmax star : Z) (patterns : list (list Z * Z)),
  (kmin <= kmax)%Z -> Forall (fun p => chars_ok kmin kmax (fst p)) patterns ->
  exists b fuel r, add_patterns star new_builder patterns = Some b /\ build kmin kmax fuel false b = Some r /\
  match r with
  | Built m =>
    (forall string, chars_ok kmin kmax string -> exists r, match_string m string = Some r /\ first_match star string patterns r) /\
    (forall string i j, chars_ok kmin kmax string -> both_match star patterns i j string -> i = j)
  | Ambiguity i j => i < j /\ exists string, chars_ok kmin kmax string /\ both_match star patterns i j string
  end.
Proof.
  intros kmin kmax star pats Hk Hp. destruct (binv_adds star pats new_builder [] (binv_new star)) as (b & Eb & B). cbn [app] in B.
  destruct (build_spec kmin kmax star Hk pats Hp b B false (S (2 ^ length (fst (b_nfa b))))) as (r & E & Hr); [lia|].
  exists b, (S (2 ^ length (fst (b_nfa b)))), r. split; [assumption|]. split; [assumption|]. destruct r as [m|i j].
  - destruct Hr as [H1 H2]. split; [exact H1|exact (H2 eq_refl)].
  - destruct Hr as (_ & H). exact H.
Qed.

(* C35: a builder can be reused after clear() *)
Theorem string_matcher_clear : forall (star : Z) (patterns : list (list Z * Z)),
  exists b, add_patterns star new_builder patterns = Some b /\ clear b = new_builder.
Proof.
  intros star pats. destruct (binv_adds star pats new_builder [] (binv_new star)) as (b & Eb & B). exists b. split; [assumption|].
  unfold clear, new_builder. f_equal. f_equal. pose proof (wf_zero _ (bi_wf _ _ _ B)) as H. destruct (snd (b_nfa b)) as [|x l]; [discriminate|].
  cbn in *. congruence.
Qed.

(* the patterns a*b, ab**, and the empty pattern over the characters -128 to 127; star is 42 *)
Definition example_patterns : list (list Z * Z) := [([97; 42; 98], 10); ([97; 98; 42; 42], 20); ([], 30)]%Z.
Example string_matcher_ex_hyp : Forall (fun p => chars_ok (-128) 127 (fst p)) example_patterns.
Proof. unfold example_patterns, chars_ok. repeat (constructor; try (cbn; lia)). Qed.
Example string_matcher_ex :
  match add_patterns 42 new_builder example_patterns with
  | Some b =>
    match build (-128) 127 100 true b with
    | Some (Built m) =>
      map (match_string m) [[]; [97]; [97; 98]; [97; 98; 97]; [97; 99; 98]; [97; 99; 98; 98]; [98]]%Z =
      [Some (Some 30%Z); Some None; Some (Some 10%Z); Some (Some 20%Z); Some (Some 10%Z); Some (Some 10%Z); Some None]
    | _ => False
    end /\ build (-128) 127 100 false b = Some (Ambiguity 0 1)
  | None => False
  end.
Proof. vm_compute. split; reflexivity. Qed.
Example string_matcher_ex_both : both_match 42 example_patterns 0 1 [97; 98]%Z.
Proof.
  exists [97; 42; 98]%Z, [97; 98; 42; 42]%Z. split; [reflexivity|]. split; [reflexivity|]. split.
  - constructor; [lia|]. apply (matches_star 42 [98]%Z [] [98]%Z). constructor; [lia|]. constructor.
  - constructor; [lia|]. constructor; [lia|]. apply (matches_star 42 [42]%Z [] []). apply (matches_star 42 [] [] []). constructor.
Qed.
(* patterns that no string matches both of *)
Example string_matcher_ex_unambiguous :
  match add_patterns 42 new_builder [([97; 42], 1); ([98; 42], 2)]%Z with
  | Some b => match build (-128) 127 100 false b with Some (Built m) => match_string m [98; 97]%Z = Some (Some 2%Z) | _ => False end
  | None => False
  end.
Proof. vm_compute. reflexivity. Qed.

Print Assumptions string_matcher_exact.
Print Assumptions string_matcher_ambiguity.
Print Assumptions string_matcher_clear.
